(** P_ftreex.v -- the root of the Falcon tree in rounded arithmetic. *)
From Verif Require Import Base Ring Poly Spec SpecR SpecF M_xform P_xform M_codec P_codec M_float M_exact P_exact M_samp M_fft M_ntru P_ntru M_tree P_brv P_cplx P_fft P_tree P_treex P_gs P_sign P_l2 P_err P_ferr P_near P_float P_fmerge P_fnorm P_fgs P_ftree.
From Coq Require Import Ring_theory Ring Lra Psatz.
Open Scope R_scope.

Lemma two_sum a b r : 0 <= a -> 0 <= b -> 0 <= r -> a * a + b * b <= r * r -> a + b <= 14143 / 10000 * r.
Proof. intros Ha Hb Hr H. apply sq_le; [lra|]. assert (Q := Rle_0_sqr (a - b)). assert (Q2 := Rle_0_sqr r). unfold Rsqr in *. lra. Qed.
Lemma cs_pair a b c d r s : 0 <= a -> 0 <= b -> 0 <= c -> 0 <= d -> 0 <= r -> 0 <= s -> a * a + b * b <= r * r -> c * c + d * d <= s * s -> a * c + b * d <= r * s.
Proof.
  intros Ha Hb Hc Hd Hr Hs H1 H2. apply sq_le; [apply Rmult_le_pos; lra|]. apply Rle_trans with ((a * a + b * b) * (c * c + d * d)).
  - assert (Q := Rle_0_sqr (a * d - b * c)). unfold Rsqr in Q. lra.
  - replace (r * s * (r * s)) with ((r * r) * (s * s)) by ring. apply Rmult_le_compat; try assumption; assert (Q1 := Rle_0_sqr a); assert (Q2 := Rle_0_sqr b); assert (Q3 := Rle_0_sqr c); assert (Q4 := Rle_0_sqr d); unfold Rsqr in *; lra.
Qed.
(** the squared length of a pair changes little *)
Lemma pair_close (x y u v : Cx) e r : Cm (Csub x u) <= e -> Cm (Csub y v) <= e -> 0 <= e -> 0 <= r -> mod2 u + mod2 v = r * r ->
  Rabs (mod2 x + mod2 y - r * r) <= e * (28286 / 10000 * r + 2 * e).
Proof.
  intros H1 H2 He Hr Hs. assert (E : forall x u, Cm (Csub x u) <= e -> Rabs (mod2 x - mod2 u) <= e * (2 * Cm u + e)).
  { clear. intros x u H. rewrite <- !Cm_sq. replace (Cm x * Cm x - Cm u * Cm u) with ((Cm x - Cm u) * (Cm x + Cm u)) by ring. rewrite Rabs_mult. assert (Q1 := Cm_le_add x u). assert (Q2 := Cm_le_add u x). rewrite (Cm_swap u x) in Q2.
    assert (Px := Cm_pos x). assert (Pu := Cm_pos u). apply Rmult_le_compat; try apply Rabs_pos; [apply Rabs_le; lra|rewrite Rabs_pos_eq by lra; lra]. }
  assert (Q1 := E x u H1). assert (Q2 := E y v H2). assert (Q3 := two_sum (Cm u) (Cm v) r (Cm_pos u) (Cm_pos v) Hr). rewrite !Cm_sq in Q3. specialize (Q3 ltac:(lra)).
  replace (mod2 x + mod2 y - r * r) with ((mod2 x - mod2 u) + (mod2 y - mod2 v)) by (rewrite <- Hs; ring). eapply Rle_trans; [apply Rabs_triang|].
  assert (e * (Cm u + Cm v) <= e * (14143 / 10000 * r)) by (apply Rmult_le_compat_l; lra). lra.
Qed.

Section Root.
Variable F : fops.
Variable fin : D F -> Prop.
Variable val : D F -> R.
Hypothesis A : accurate F fin val.
Hypothesis RE : realness F fin val.
Notation C := (D F * D F)%type.
Notation d := (c0 F).
Notation cv := (cv F val).
Notation X := (X F val).
Notation apx := (apx F fin val).
Notation vfin := (vfin F fin).
Notation cfin := (cfin F fin).

(** |x|^2 + |y|^2 *)
Lemma sq_point (x y : C) : cfin x -> cfin y -> Cm (cv x) <= 300000 -> Cm (cv y) <= 300000 ->
  let s := cadd F (fcmul F x (cconj F x)) (fcmul F y (cconj F y)) in
  cfin s /\ val (snd s) = 0 /\ Rabs (val (fst s) - (mod2 (cv x) + mod2 (cv y))) <= 41 / 10 * ulp * (mod2 (cv x) + mod2 (cv y)) + 3 * tiny.
Proof.
  intros Fx Fy Bx By s. destruct (norm_point F fin val A RE x Fx ltac:(lra)) as (F1 & Z1 & E1). destruct (norm_point F fin val A RE y Fy ltac:(lra)) as (F2 & Z2 & E2).
  set (p := fcmul F x (cconj F x)) in *. set (p' := fcmul F y (cconj F y)) in *. assert (U := ulp_val). assert (T := tiny_pos). assert (T1 := tiny_30). assert (P1 := mod2_pos (cv x)). assert (P2 := mod2_pos (cv y)).
  assert (M1 : mod2 (cv x) <= 90000000000) by (rewrite <- Cm_sq; apply Rle_trans with (300000 * 300000); [apply Rmult_le_compat; try apply Cm_pos; assumption|lra]).
  assert (M2 : mod2 (cv y) <= 90000000000) by (rewrite <- Cm_sq; apply Rle_trans with (300000 * 300000); [apply Rmult_le_compat; try apply Cm_pos; assumption|lra]).
  assert (B1 := E1). apply Rabs_le_inv in B1. assert (B2 := E2). apply Rabs_le_inv in B2. 
  assert (V1 : Rabs (val (fst p)) <= 91000000000) by (apply Rabs_le; rewrite U in *; lra). assert (V2 : Rabs (val (fst p')) <= 91000000000) by (apply Rabs_le; rewrite U in *; lra).
  destruct (real_add F fin val A p p' (val (fst p)) (val (fst p')) F1 F2 (cv_re F val p Z1) (cv_re F val p' Z2)) as (Fs & Zs & Es); [lra|lra|]. fold s in Fs, Zs, Es.
  split; [exact Fs|]. split; [exact Zs|]. set (m := mod2 (cv x)) in *. set (m' := mod2 (cv y)) in *. set (a := val (fst p)) in *. set (b := val (fst p')) in *.
  replace (val (fst s) - (m + m')) with ((val (fst s) - (a + b)) + ((a - m) + (b - m'))) by ring. eapply Rle_trans; [apply Rabs_triang|]. eapply Rle_trans; [apply Rplus_le_compat_l, Rabs_triang|].
  assert (Rabs (a + b) <= 1001 / 1000 * (m + m') + 2 * tiny) by (apply Rabs_le; rewrite U in *; lra). rewrite U in *. lra.
Qed.
(** u conj x + v conj y *)
Lemma dot_point (u v x y : C) rho s : cfin u -> cfin v -> cfin x -> cfin y -> 0 <= rho <= 5000 -> 0 <= s <= 300000 ->
  mod2 (cv x) + mod2 (cv y) <= rho * rho -> mod2 (cv u) + mod2 (cv v) <= s * s ->
  let p := cadd F (fcmul F u (cconj F x)) (fcmul F v (cconj F y)) in
  cfin p /\ Cm (Csub (cv p) (Cadd (Cmul (cv u) (Cconj (cv x))) (Cmul (cv v) (Cconj (cv y))))) <= 41 / 10 * ulp * (rho * s) + 3 * tiny.
Proof.
  intros Fu Fv Fx Fy Hr Hs S1 S2 p. assert (U := ulp_val). assert (T := tiny_pos). assert (T1 := tiny_30).
  assert (P1 := mod2_pos (cv x)). assert (P2 := mod2_pos (cv y)). assert (P3 := mod2_pos (cv u)). assert (P4 := mod2_pos (cv v)).
  assert (Bx : Cm (cv x) <= rho) by (apply Cm_le; lra). assert (By : Cm (cv y) <= rho) by (apply Cm_le; lra). assert (Bu : Cm (cv u) <= s) by (apply Cm_le; lra). assert (Bv : Cm (cv v) <= s) by (apply Cm_le; lra).
  destruct (cconj_ok F fin val A x Fx) as [Fxc Exc]. destruct (cconj_ok F fin val A y Fy) as [Fyc Eyc].
  destruct (cmul_err F fin val A u (cconj F x) Fu Fxc) as [G1 G2]; [apply big_h; lra|rewrite Exc, Cm_conj; apply big_h; lra|]. destruct (cmul_err F fin val A v (cconj F y) Fv Fyc) as [G3 G4]; [apply big_h; lra|rewrite Eyc, Cm_conj; apply big_h; lra|].
  rewrite Exc, Cm_conj in G2. rewrite Eyc, Cm_conj in G4. set (a := fcmul F u (cconj F x)) in *. set (b := fcmul F v (cconj F y)) in *.
  assert (CS : Cm (cv u) * Cm (cv x) + Cm (cv v) * Cm (cv y) <= s * rho) by (apply cs_pair; try apply Cm_pos; try lra; rewrite !Cm_sq; lra).
  assert (Q1 := Cm_le_add (cv a) (Cmul (cv u) (Cconj (cv x)))). rewrite Cm_mul, Cm_conj in Q1. assert (Q2 := Cm_le_add (cv b) (Cmul (cv v) (Cconj (cv y)))). rewrite Cm_mul, Cm_conj in Q2.
  assert (N1 : 0 <= Cm (cv u) * Cm (cv x)) by (apply Rmult_le_pos; apply Cm_pos). assert (N2 : 0 <= Cm (cv v) * Cm (cv y)) by (apply Rmult_le_pos; apply Cm_pos).
  assert (SR : s * rho <= 1500000000) by (apply Rle_trans with (300000 * 5000); [apply Rmult_le_compat; lra|lra]).
  destruct (cadd_err F fin val A a b G1 G3) as [G5 G6]; [apply big_h; rewrite U in *; lra|apply big_h; rewrite U in *; lra|]. fold p in G5, G6. split; [exact G5|].
  assert (Q3 := Cm_tri (cv a) (cv b)).
  eapply Rle_trans; [eapply Rle_trans; [|apply (Cm_tri (Csub (cv p) (Cadd (cv a) (cv b))) (Cadd (Csub (cv a) (Cmul (cv u) (Cconj (cv x)))) (Csub (cv b) (Cmul (cv v) (Cconj (cv y))))))]|].
  - right. f_equal. apply Cx_eq; cx; ring.
  - assert (Q4 := Cm_tri (Csub (cv a) (Cmul (cv u) (Cconj (cv x)))) (Csub (cv b) (Cmul (cv v) (Cconj (cv y))))). rewrite U in *. lra.
Qed.

Lemma root_point (wg wf wG wF : C) (gg ff GG FF : Cx) r s : cfin wg -> cfin wf -> cfin wG -> cfin wF ->
  Cm (Csub (cv wg) gg) <= 1 / 10000000000 -> Cm (Csub (cv wf) ff) <= 1 / 10000000000 -> Cm (Csub (cv wG) GG) <= 3 / 1000000000 -> Cm (Csub (cv wF) FF) <= 3 / 1000000000 ->
  29 / 10 <= r <= 4160 -> 29 / 10 <= s <= 185364 -> mod2 gg + mod2 ff = r * r -> mod2 GG + mod2 FF = s * s ->
  let w := Cadd (Cmul GG (Cconj gg)) (Cmul FF (Cconj ff)) in mod2 w = r * r * (s * s) - 151019521 ->
  let x00 := cadd F (fcmul F wg (cconj F wg)) (fcmul F wf (cconj F wf)) in
  let x10 := cadd F (fcmul F wG (cconj F wg)) (fcmul F wF (cconj F wf)) in
  let x11 := cadd F (fcmul F wG (cconj F wG)) (fcmul F wF (cconj F wF)) in
  let l := fcdiv F x10 x00 in let r11 := csub F x11 (fcmul F (fcmul F l (cconj F l)) x00) in
  cfin x00 /\ val (snd x00) = 0 /\ Rabs (val (fst x00) - r * r) <= 1 / 1000 * (r * r) /\
  cfin l /\ Cm (Csub (Cmul (cv l) (Cof (r * r))) w) <= 1 / 10000 /\
  cfin r11 /\ val (snd r11) = 0 /\ Rabs (val (fst r11) - 151019521 / (r * r)) <= 1 / 1000 * (151019521 / (r * r)).
Proof.
  intros Fg Ff FG FFF Hg Hf HG HF Hr Hs S1 S2 w Hw x00 x10 x11 l r11. assert (U := ulp_val). assert (T := tiny_pos). assert (T1 := tiny_30).
  assert (Bgg : Cm gg <= r) by (apply Cm_le; [lra|assert (Q := mod2_pos ff); lra]). assert (Bff : Cm ff <= r) by (apply Cm_le; [lra|assert (Q := mod2_pos gg); lra]).
  assert (BGG : Cm GG <= s) by (apply Cm_le; [lra|assert (Q := mod2_pos FF); lra]). assert (BFF : Cm FF <= s) by (apply Cm_le; [lra|assert (Q := mod2_pos GG); lra]).
  assert (Ng : Cm (cv wg) <= r + 1 / 10000000000) by (assert (Q := Cm_le_add (cv wg) gg); lra). assert (Nf : Cm (cv wf) <= r + 1 / 10000000000) by (assert (Q := Cm_le_add (cv wf) ff); lra).
  assert (NG : Cm (cv wG) <= s + 3 / 1000000000) by (assert (Q := Cm_le_add (cv wG) GG); lra). assert (NF : Cm (cv wF) <= s + 3 / 1000000000) by (assert (Q := Cm_le_add (cv wF) FF); lra).
  assert (PC1 := pair_close (cv wg) (cv wf) gg ff _ r Hg Hf ltac:(lra) ltac:(lra) S1). assert (PC2 := pair_close (cv wG) (cv wF) GG FF _ s HG HF ltac:(lra) ltac:(lra) S2).
  set (m1 := mod2 (cv wg) + mod2 (cv wf)) in *. set (m2 := mod2 (cv wG) + mod2 (cv wF)) in *.
  assert (RR : 29 / 10 * r <= r * r <= 4160 * r) by (split; apply Rmult_le_compat_r; lra). assert (SS : 29 / 10 * s <= s * s <= 185364 * s) by (split; apply Rmult_le_compat_r; lra).
  destruct (sq_point wg wf Fg Ff) as (F0 & Z0 & E0); [lra|lra|]. fold x00 in F0, Z0, E0. fold m1 in E0.
  destruct (sq_point wG wF FG FFF) as (F2 & Z2 & E2); [lra|lra|]. fold x11 in F2, Z2, E2. fold m2 in E2.
  assert (B1 := PC1). apply Rabs_le_inv in B1. assert (B2 := PC2). apply Rabs_le_inv in B2.
  set (a := val (fst x00)) in *. set (c := val (fst x11)) in *.
  assert (Ea : Rabs (a - r * r) <= 286 / 1000000000000 * r).
  { replace (a - r * r) with ((a - m1) + (m1 - r * r)) by ring. eapply Rle_trans; [apply Rabs_triang|]. rewrite U in E0. lra. }
  assert (Ec : Rabs (c - s * s) <= 86 / 10000000000 * s).
  { replace (c - s * s) with ((c - m2) + (m2 - s * s)) by ring. eapply Rle_trans; [apply Rabs_triang|]. rewrite U in E2. lra. }
  assert (Ba : (1 - 1 / 1000000) * (r * r) <= a <= (1 + 1 / 1000000) * (r * r)) by (apply Rabs_le_inv in Ea; lra).
  assert (Bc : Rabs c <= 35000000000) by (apply Rabs_le_inv in Ec; apply Rabs_le; lra).
  split; [exact F0|]. split; [exact Z0|]. split; [fold a; lra|].
  (* x10 *)
  destruct (dot_point wG wF wg wf (r + 1 / 1000000000) (s + 1 / 100000000) FG FFF Fg Ff ltac:(lra) ltac:(lra)) as [F1 E1]; [fold m1; lra|fold m2; lra|]. fold x10 in F1, E1.
  assert (Sgf : Cm (cv wg) + Cm (cv wf) <= 14143 / 10000 * (r + 1 / 1000000000)) by (apply two_sum; try apply Cm_pos; [lra|rewrite !Cm_sq; fold m1; lra]).
  assert (SGF : Cm GG + Cm FF <= 14143 / 10000 * s) by (apply two_sum; try apply Cm_pos; [lra|rewrite !Cm_sq; lra]).
  assert (RS : 0 <= r * s <= 4160 * s) by (split; [apply Rmult_le_pos; lra|apply Rmult_le_compat_r; lra]).
  assert (E1' : Cm (Csub (cv x10) w) <= 425 / 100000000000 * r + 145 / 1000000000000 * s).
  { assert (Q : Cm (Csub (cv x10) w) <= Cm (Csub (cv x10) (Cadd (Cmul (cv wG) (Cconj (cv wg))) (Cmul (cv wF) (Cconj (cv wf))))) +
      (Cm (Cadd (Cmul (Csub (cv wG) GG) (Cconj (cv wg))) (Cmul (Csub (cv wF) FF) (Cconj (cv wf)))) + Cm (Cadd (Cmul GG (Cconj (Csub (cv wg) gg))) (Cmul FF (Cconj (Csub (cv wf) ff)))))).
    { eapply Rle_trans; [|apply Rplus_le_compat_l, Cm_tri]. eapply Rle_trans; [|apply Cm_tri]. right. f_equal. unfold w. apply Cx_eq; cx; ring. }
    assert (Q2 := Cm_tri (Cmul (Csub (cv wG) GG) (Cconj (cv wg))) (Cmul (Csub (cv wF) FF) (Cconj (cv wf)))). assert (Q3 := Cm_tri (Cmul GG (Cconj (Csub (cv wg) gg))) (Cmul FF (Cconj (Csub (cv wf) ff)))). rewrite !Cm_mul, !Cm_conj in Q2, Q3.
    assert (Cm (Csub (cv wG) GG) * Cm (cv wg) <= 3 / 1000000000 * Cm (cv wg)) by (apply Rmult_le_compat_r; [apply Cm_pos|exact HG]). assert (Cm (Csub (cv wF) FF) * Cm (cv wf) <= 3 / 1000000000 * Cm (cv wf)) by (apply Rmult_le_compat_r; [apply Cm_pos|exact HF]).
    assert (Cm GG * Cm (Csub (cv wg) gg) <= Cm GG * (1 / 10000000000)) by (apply Rmult_le_compat_l; [apply Cm_pos|exact Hg]). assert (Cm FF * Cm (Csub (cv wf) ff) <= Cm FF * (1 / 10000000000)) by (apply Rmult_le_compat_l; [apply Cm_pos|exact Hf]).
    replace ((r + 1 / 1000000000) * (s + 1 / 100000000)) with (r * s + 1 / 1000000000 * s + 1 / 100000000 * r + 1 / 100000000000000000) in E1 by field. rewrite U in E1. lra. }
  set (W := r * s) in *. assert (Mw : mod2 w <= W * W) by (unfold W; lra). assert (Cw : Cm w <= W) by (apply Cm_le; [lra|exact Mw]).
  assert (Wlow : 12289 <= W). { apply sq_le; [lra|]. assert (Q := mod2_pos w). unfold W. lra. }
  set (dl := 426 / 100000000000 * r + 15 / 100000000000 * s).
  assert (WW : W * W = (r * r) * (s * s)) by (unfold W; ring). assert (S2b : s * s <= 34400000000) by lra.
  assert (Wa : W * W <= 100000000000 * a). { rewrite WW. apply Rle_trans with ((r * r) * 34400000000); [apply Rmult_le_compat_l; lra|lra]. }
  assert (Wa2 : W <= 400000 * a). { unfold W. assert (r * s <= r * 185364) by (apply Rmult_le_compat_l; lra). lra. }
  destruct (ldl_point F fin val A RE x00 x10 x11 a c w W (425 / 100000000000 * r + 145 / 1000000000000 * s) dl F0 F1 F2 (cv_re F val x00 Z0) (cv_re F val x11 Z2)) as (Fl & El & Fr & Zr & Er); try assumption; try (unfold dl; lra); try lra.
  fold l in Fl, El, Fr, Zr, Er. fold r11 in Fr, Zr, Er. split; [exact Fl|].
  assert (Bdl : 0 <= dl <= 1 / 20000) by (unfold dl; lra).
  assert (Ca : Cm (a, 0) = a) by (rewrite Cm_re; apply Rabs_pos_eq; lra).
  split.
  { assert (Bl : Cm (cv l) * a <= 1001 / 1000 * W). { rewrite <- Ca, <- Cm_mul. assert (Q := Cm_le_add (Cmul (cv l) (a, 0)) w). lra. }
    assert (Bl2 : Cm (cv l) * r <= 1002 / 1000 * s).
    { apply Rmult_le_reg_r with r; [lra|]. apply Rle_trans with (Cm (cv l) * (1000002 / 1000000 * a)); [rewrite Rmult_assoc; apply Rmult_le_compat_l; [apply Cm_pos|lra]|]. unfold W in Bl, RS. lra. }
    assert (Q : Cm (Csub (Cmul (cv l) (Cof (r * r))) w) <= Cm (Csub (Cmul (cv l) (a, 0)) w) + Cm (cv l) * Rabs (a - r * r)).
    { rewrite <- Cm_re, <- Cm_mul. rewrite <- (Cm_opp (Cmul (cv l) (a - r * r, 0))). eapply Rle_trans; [|apply Cm_tri]. right. f_equal. apply Cx_eq; unfold Cof; cx; ring. }
    assert (Q2 : Cm (cv l) * Rabs (a - r * r) <= Cm (cv l) * (286 / 1000000000000 * r)) by (apply Rmult_le_compat_l; [apply Cm_pos|exact Ea]). unfold dl in *. lra. }
  split; [exact Fr|]. split; [exact Zr|].
  (* d11 *)
  set (h := 151019521 / (r * r)). assert (Hh : s * s - mod2 w / (r * r) = h) by (unfold h; rewrite Hw; field; lra).
  assert (Rp : 0 < r * r) by lra. assert (hp : 0 < h) by (unfold h; apply Rdiv_lt_0_compat; lra).
  (* everything relative to 1 / r^2 *)
  apply Rmult_le_reg_r with (r * r); [exact Rp|]. replace (1 / 1000 * h * (r * r)) with (151019521 / 1000) by (unfold h; field; lra).
  assert (Sr : s * s / r * (r * r) = s * s * r) by (field; lra).
  assert (ia : r * r / a <= 1001 / 1000). { apply Rmult_le_reg_r with a; [lra|]. unfold Rdiv at 1. rewrite Rmult_assoc, Rinv_l by lra. lra. }
  assert (ia0 : 0 <= r * r / a) by (apply Rmult_le_pos; [lra|left; apply Rinv_0_lt_compat; lra]).
  (* the three quotients, times r^2 *)
  assert (K1 : dl * W / a * (r * r) <= 1001 / 1000 * (dl * W)). { replace (dl * W / a * (r * r)) with (r * r / a * (dl * W)) by (field; lra). apply Rmult_le_compat_r; [apply Rmult_le_pos; lra|exact ia]. }
  assert (K2 : W * W / a * (r * r) <= 1001 / 1000 * (W * W)). { replace (W * W / a * (r * r)) with (r * r / a * (W * W)) by (field; lra). apply Rmult_le_compat_r; [apply Rle_0_sqr|exact ia]. }
  assert (K3 : Rabs (mod2 w / a - mod2 w / (r * r)) * (r * r) <= 287 / 1000000000000 * (s * s * r)).
  { replace (mod2 w / a - mod2 w / (r * r)) with ((r * r - a) * (mod2 w / (a * (r * r)))) by (field; split; lra). rewrite Rabs_mult, (Rabs_minus_sym (r * r) a).
    assert (Q0 : 0 <= mod2 w / (a * (r * r))) by (apply Rmult_le_pos; [apply mod2_pos|left; apply Rinv_0_lt_compat, Rmult_lt_0_compat; lra]). rewrite (Rabs_pos_eq (mod2 w / _)) by exact Q0.
    rewrite Rmult_assoc. assert (Q1 : mod2 w / (a * (r * r)) * (r * r) <= 1001 / 1000 * (s * s)).
    { replace (mod2 w / (a * (r * r)) * (r * r)) with (mod2 w / a) by (field; split; lra). apply Rle_trans with (W * W / a); [apply Rmult_le_compat_r; [left; apply Rinv_0_lt_compat; lra|exact Mw]|]. rewrite WW. replace (r * r * (s * s) / a) with (r * r / a * (s * s)) by (field; lra). apply Rmult_le_compat_r; lra. }
    apply Rle_trans with ((286 / 1000000000000 * r) * (1001 / 1000 * (s * s))); [apply Rmult_le_compat; [apply Rabs_pos|apply Rmult_le_pos; lra|exact Ea|exact Q1]|]. assert (0 <= s * s * r) by (apply Rmult_le_pos; lra). lra. }
  assert (K4 : Rabs (c - mod2 w / a - h) * (r * r) <= 86 / 10000000000 * (s * (r * r)) + 287 / 1000000000000 * (s * s * r)).
  { rewrite <- Hh. replace (c - mod2 w / a - (s * s - mod2 w / (r * r))) with ((c - s * s) - (mod2 w / a - mod2 w / (r * r))) by ring.
    apply Rle_trans with ((Rabs (c - s * s) + Rabs (mod2 w / a - mod2 w / (r * r))) * (r * r)).
    - apply Rmult_le_compat_r; [lra|]. unfold Rminus at 1. eapply Rle_trans; [apply Rabs_triang|]. rewrite Rabs_Ropp. lra.
    - rewrite Rmult_plus_distr_r. assert (Rabs (c - s * s) * (r * r) <= 86 / 10000000000 * s * (r * r)) by (apply Rmult_le_compat_r; lra). lra. }
  assert (K5 : Rabs (c - mod2 w / a) * (r * r) <= 151019521 + Rabs (c - mod2 w / a - h) * (r * r)).
  { replace 151019521 with (h * (r * r)) by (unfold h; field; lra). rewrite <- Rmult_plus_distr_r. apply Rmult_le_compat_r; [lra|]. replace (c - mod2 w / a) with (h + (c - mod2 w / a - h)) at 1 by ring. eapply Rle_trans; [apply Rabs_triang|]. rewrite (Rabs_pos_eq h) by lra. lra. }
  (* numbers *)
  assert (N1 : s * (r * r) <= 185364 * 17305600) by (apply Rmult_le_compat; lra).
  assert (N2 : s * s * r <= 34359812496 * 4160) by (apply Rmult_le_compat; lra).
  assert (N3 : dl * W <= 426 / 100000000000 * (185364 * 17305600) + 15 / 100000000000 * (34359812496 * 4160)).
  { replace (dl * W) with (426 / 100000000000 * (s * (r * r)) + 15 / 100000000000 * (s * s * r)) by (unfold dl, W; ring). lra. }
  assert (N4 : W * W <= 17305600 * 34359812496) by (rewrite WW; apply Rmult_le_compat; lra).
  assert (Er' : Rabs (val (fst r11) - (c - mod2 w / a)) * (r * r) <= 2002 / 1000 * (dl * W / a * (r * r)) + 7 / 10000000000000000 * (W * W / a * (r * r)) + 112 / 1000000000000000000 * (Rabs (c - mod2 w / a) * (r * r)) + 1 / 1000000000000000000 * (r * r)).
  { apply Rmult_le_compat_r with (r := r * r) in Er; [|lra]. lra. }
  replace (val (fst r11) - h) with ((val (fst r11) - (c - mod2 w / a)) + (c - mod2 w / a - h)) by ring.
  apply Rle_trans with ((Rabs (val (fst r11) - (c - mod2 w / a)) + Rabs (c - mod2 w / a - h)) * (r * r)); [apply Rmult_le_compat_r; [lra|apply Rabs_triang]|]. rewrite Rmult_plus_distr_r. lra.
Qed.
End Root.
