(** P_ftree.v -- the nodes of the Falcon tree in rounded arithmetic. *)
From Verif Require Import Base Ring Poly Spec SpecR SpecF M_xform P_xform M_codec P_codec M_float M_exact P_exact M_samp M_fft M_ntru P_ntru M_tree P_brv P_cplx P_fft P_tree P_treex P_gs P_sign P_l2 P_err P_ferr P_near P_float P_fmerge P_fnorm P_fgs.
From Coq Require Import Ring_theory Ring Lra Psatz.
Open Scope R_scope.

(** What is needed of arithmetic beyond accuracy: products that are real in exact arithmetic have no imaginary part. *)
Record realness (F : fops) (fin : D F -> Prop) (val : D F -> R) : Prop := mk_realness {
  re_zero : forall x y, fin x -> fin y -> val x = 0 -> Rabs (val y) <= 10 ^ 40 -> val (fmul F x y) = 0;
  re_conj : forall x, fin (fst x) -> fin (snd x) -> Rabs (val (fst x)) <= 10 ^ 40 -> Rabs (val (snd x)) <= 10 ^ 40 -> val (snd (fcmul F x (cconj F x))) = 0;
  re_real : forall x y, fin (fst x) -> fin (snd x) -> fin (fst y) -> fin (snd y) -> Rabs (val (fst x)) <= 10 ^ 40 -> Rabs (val (fst y)) <= 10 ^ 40 ->
    val (snd x) = 0 -> val (snd y) = 0 -> val (snd (fcmul F x y)) = 0
}.

Lemma tiny_30 : tiny <= 1 / 1000000000000000000000000000000.
Proof. unfold tiny. replace (1 / 1000000000000000000000000000000) with (/ 1000000000000000000000000000000) by lra. apply Rinv_le_contravar; [lra|]. apply Rle_trans with (10 ^ 30); [simpl; lra|apply Rle_pow; [lra|lia]]. Qed.
Lemma Cm_re a : Cm (a, 0) = Rabs a.
Proof. unfold Cm, mod2. cbn [fst snd]. replace (a * a + 0 * 0) with (Rsqr a) by (unfold Rsqr; ring). apply sqrt_Rsqr_abs. Qed.
Lemma big_40 x : x <= 1000000000000 -> x <= 10 ^ 40.
Proof. intros H. eapply Rle_trans; [exact H|]. apply Rle_trans with (10 ^ 13); [simpl; lra|apply Rle_pow; [lra|lia]]. Qed.
Lemma big_h x : x <= 1000000000000 -> x <= huge.
Proof. intros H. apply huge_40. apply big_40 in H. simpl in *. lra. Qed.
Lemma big_50 x : x <= 1000000000000 -> x <= 10 ^ 50.
Proof. intros H. apply big_40 in H. eapply Rle_trans; [exact H|]. apply Rle_pow; [lra|lia]. Qed.
Lemma small_50 x : 1 / 1000 <= x -> / 10 ^ 50 <= x.
Proof. intros H. eapply Rle_trans; [|exact H]. replace (1 / 1000) with (/ 10 ^ 3) by (simpl; lra). apply Rinv_le_contravar; [apply pow_lt; lra|apply Rle_pow; [lra|lia]]. Qed.

Section Node.
Variable F : fops.
Variable fin : D F -> Prop.
Variable val : D F -> R.
Hypothesis A : accurate F fin val.
Hypothesis RE : realness F fin val.
Notation C := (D F * D F)%type.
Notation d := (c0 F).
Notation cv := (cv F val).
Notation X := (X F val).
Notation apx := (apx F fin val).
Notation vfin := (vfin F fin).
Notation cfin := (cfin F fin).

Lemma half_apx : fin (half F) /\ Rabs (val (half F) - 1 / 2) <= 2 * ulp.
Proof.
  destruct (flit_err F fin val A (5, 1)%Z eq_refl) as [H1 H2]. cbn [fst snd] in *. split; [exact H1|]. change (half F) with (flit F 5 1). replace (1 / 2) with (5 / IZR (10 ^ 1)) by (simpl; lra). eapply Rle_trans; [exact H2|].
  replace (5 / IZR (10 ^ 1)) with (1 / 2) by (simpl; lra). rewrite (Rabs_pos_eq (1 / 2)) by lra. assert (T := tiny_30). rewrite ulp_val. lra.
Qed.
(** half of a real number *)
Lemma half_point (s : C) x : cfin s -> val (snd s) = 0 -> Rabs x <= 10000000000 -> Rabs (val (fst s) - x) <= ulp * Rabs x ->
  cfin (cscal F s (half F)) /\ val (snd (cscal F s (half F))) = 0 /\ Rabs (val (fst (cscal F s (half F))) - x / 2) <= 61 / 10 * ulp * (Rabs x / 2) + tiny.
Proof.
  intros [F1 F2] Z Bx Hx. destruct half_apx as [H1 H2]. set (c := half F) in *. assert (U := ulp_val). assert (P := Rabs_pos x).
  assert (Hc : 1 / 2 - 2 * ulp <= val c <= 1 / 2 + 2 * ulp) by (apply Rabs_le_inv in H2; lra).
  assert (Bs : Rabs (val (fst s)) <= 1001 / 1000 * Rabs x). { replace (val (fst s)) with ((val (fst s) - x) + x) by ring. eapply Rle_trans; [apply Rabs_triang|]. rewrite U in Hx. lra. }
  assert (Bc : Rabs (val c) <= 1 / 2 + 2 * ulp) by (apply Rabs_le; lra).
  destruct (acc_mul _ _ _ A (fst s) c F1 H1) as [G1 G2]; [apply big_h; lra|apply big_h; lra|]. destruct (acc_mul _ _ _ A (snd s) c F2 H1) as [G3 G4]; [apply big_h; rewrite Z, Rabs_R0; lra|apply big_h; lra|].
  split; [split; assumption|]. unfold cscal. cbn [fst snd]. split; [apply (re_zero _ _ _ RE); [exact F2|exact H1|exact Z|apply big_40; lra]|].
  set (m := val (fmul F (fst s) c)) in *. set (v := val (fst s)) in *. set (k := val c) in *.
  replace (m - x / 2) with ((m - v * k) + ((v - x) * k + x * (k - 1 / 2))) by field.
  eapply Rle_trans; [apply Rabs_triang|]. eapply Rle_trans; [apply Rplus_le_compat_l, Rabs_triang|]. rewrite !Rabs_mult in *.
  assert (Q1 : Rabs v * Rabs k <= (1001 / 1000 * Rabs x) * (1 / 2 + 2 * ulp)) by (apply Rmult_le_compat; try apply Rabs_pos; assumption).
  assert (Q2 : Rabs (v - x) * Rabs k <= (ulp * Rabs x) * (1 / 2 + 2 * ulp)) by (apply Rmult_le_compat; try apply Rabs_pos; assumption).
  assert (Q3 : Rabs x * Rabs (k - 1 / 2) <= Rabs x * (2 * ulp)) by (apply Rmult_le_compat_l; [apply Rabs_pos|exact H2]).
  rewrite U in *. lra.
Qed.
Lemma real_add x y a b : cfin x -> cfin y -> cv x = (a, 0) -> cv y = (b, 0) -> Rabs a <= 1000000000000 -> Rabs b <= 1000000000000 ->
  cfin (cadd F x y) /\ val (snd (cadd F x y)) = 0 /\ Rabs (val (fst (cadd F x y)) - (a + b)) <= ulp * Rabs (a + b).
Proof.
  intros [X1 X2] [Y1 Y2] Ex Ey Ba Bb. assert (Ex1 : val (fst x) = a) by (apply (f_equal fst) in Ex; exact Ex). assert (Ex2 : val (snd x) = 0) by (apply (f_equal snd) in Ex; exact Ex).
  assert (Ey1 : val (fst y) = b) by (apply (f_equal fst) in Ey; exact Ey). assert (Ey2 : val (snd y) = 0) by (apply (f_equal snd) in Ey; exact Ey).
  destruct (acc_add _ _ _ A (fst x) (fst y) X1 Y1) as [G1 G2]; [rewrite Ex1; apply big_h, Ba|rewrite Ey1; apply big_h, Bb|]. destruct (acc_add _ _ _ A (snd x) (snd y) X2 Y2) as [G3 G4]; [rewrite Ex2, Rabs_R0; apply big_h; lra|rewrite Ey2, Rabs_R0; apply big_h; lra|].
  split; [split; assumption|]. unfold cadd. cbn [fst snd]. rewrite Ex1, Ey1 in G2. split; [|exact G2]. rewrite Ex2, Ey2, Rplus_0_r, Rabs_R0, Rmult_0_r, Rminus_0_r in G4.
  assert (G5 := Rabs_pos (val (fadd F (snd x) (snd y)))). apply Rabs_le_inv in G4. lra.
Qed.
Lemma real_sub x y a b : cfin x -> cfin y -> cv x = (a, 0) -> cv y = (b, 0) -> Rabs a <= 1000000000000 -> Rabs b <= 1000000000000 ->
  cfin (csub F x y) /\ val (snd (csub F x y)) = 0 /\ Rabs (val (fst (csub F x y)) - (a - b)) <= ulp * Rabs (a - b).
Proof.
  intros [X1 X2] [Y1 Y2] Ex Ey Ba Bb. assert (Ex1 : val (fst x) = a) by (apply (f_equal fst) in Ex; exact Ex). assert (Ex2 : val (snd x) = 0) by (apply (f_equal snd) in Ex; exact Ex).
  assert (Ey1 : val (fst y) = b) by (apply (f_equal fst) in Ey; exact Ey). assert (Ey2 : val (snd y) = 0) by (apply (f_equal snd) in Ey; exact Ey).
  destruct (acc_sub _ _ _ A (fst x) (fst y) X1 Y1) as [G1 G2]; [rewrite Ex1; apply big_h, Ba|rewrite Ey1; apply big_h, Bb|]. destruct (acc_sub _ _ _ A (snd x) (snd y) X2 Y2) as [G3 G4]; [rewrite Ex2, Rabs_R0; apply big_h; lra|rewrite Ey2, Rabs_R0; apply big_h; lra|].
  split; [split; assumption|]. unfold csub. cbn [fst snd]. rewrite Ex1, Ey1 in G2. split; [|exact G2]. rewrite Ex2, Ey2, Rminus_0_r, Rabs_R0, Rmult_0_r, Rminus_0_r in G4.
  assert (G5 := Rabs_pos (val (fsub F (snd x) (snd y)))). apply Rabs_le_inv in G4. lra.
Qed.
Lemma cv_re (x : C) : val (snd x) = 0 -> cv x = (val (fst x), 0).
Proof. intros H. unfold P_err.cv. rewrite H. reflexivity. Qed.
(** x conj x, and the product of two real numbers *)
Lemma norm_point (x : C) : cfin x -> Cm (cv x) <= 1000000 ->
  let p := fcmul F x (cconj F x) in cfin p /\ val (snd p) = 0 /\ Rabs (val (fst p) - mod2 (cv x)) <= 3 * ulp * mod2 (cv x) + tiny.
Proof.
  intros Fx Bx p. destruct (cconj_ok F fin val A x Fx) as [Fc Ec]. assert (H : 1000000 <= huge) by (apply big_h; lra).
  destruct (cmul_err F fin val A x (cconj F x) Fx Fc) as [G1 G2]; [lra|rewrite Ec, Cm_conj; lra|]. fold p in G1, G2. split; [exact G1|].
  assert (Z : val (snd p) = 0). { destruct Fx. apply (re_conj _ _ _ RE); try assumption; apply big_40; [assert (Q := cv_fst F val x _ Bx)|assert (Q := cv_snd F val x _ Bx)]; lra. }
  split; [exact Z|]. rewrite Ec, Cm_conj, Cm_sq in G2. eapply Rle_trans; [|exact G2].
  replace (val (fst p) - mod2 (cv x)) with (fst (Csub (cv p) (Cmul (cv x) (Cconj (cv x))))) by (unfold mod2, P_err.cv; cx; ring). apply Cm_fst.
Qed.
Lemma prod_point (x y : C) a b : cfin x -> cfin y -> cv x = (a, 0) -> cv y = (b, 0) -> Rabs a <= 1000000000000 -> Rabs b <= 1000000000000 ->
  let p := fcmul F x y in cfin p /\ val (snd p) = 0 /\ Rabs (val (fst p) - a * b) <= 3 * ulp * (Rabs a * Rabs b) + tiny.
Proof.
  intros Fx Fy Ex Ey Ba Bb p. assert (H : 1000000000000 <= huge) by (apply big_h; lra). 
  destruct (cmul_err F fin val A x y Fx Fy) as [G1 G2]; [rewrite Ex, Cm_re; lra|rewrite Ey, Cm_re; lra|]. fold p in G1, G2. split; [exact G1|].
  assert (Ex1 : val (fst x) = a) by (apply (f_equal fst) in Ex; exact Ex). assert (Ex2 : val (snd x) = 0) by (apply (f_equal snd) in Ex; exact Ex).
  assert (Ey1 : val (fst y) = b) by (apply (f_equal fst) in Ey; exact Ey). assert (Ey2 : val (snd y) = 0) by (apply (f_equal snd) in Ey; exact Ey).
  split; [destruct Fx, Fy; apply (re_real _ _ _ RE); try assumption; [rewrite Ex1; apply big_40, Ba|rewrite Ey1; apply big_40, Bb]|].
  rewrite Ex, Ey, !Cm_re in G2. eapply Rle_trans; [|exact G2]. replace (val (fst p) - a * b) with (fst (Csub (cv p) (Cmul (a, 0) (b, 0)))) by (unfold P_err.cv; cx; ring). apply Cm_fst.
Qed.

(** ** LDL at one point: x00 and x11 real, x10 near w *)
Lemma ldl_point (x00 x10 x11 : C) a c w W e dl : cfin x00 -> cfin x10 -> cfin x11 -> cv x00 = (a, 0) -> cv x11 = (c, 0) -> 1 / 2 <= a <= 10000000000 -> Rabs c <= 100000000000 ->
  Cm w <= W -> W <= 1000000000 -> W <= 400000 * a -> W * W <= 100000000000 * a -> 0 <= e -> Cm (Csub (cv x10) w) <= e -> e + 9 / 10000000000000000 * (W + e) + tiny <= dl -> dl <= W / 1000 ->
  let l := fcdiv F x10 x00 in let r := csub F x11 (fcmul F (fcmul F l (cconj F l)) x00) in
  cfin l /\ Cm (Csub (Cmul (cv l) (a, 0)) w) <= dl /\
  cfin r /\ val (snd r) = 0 /\
  Rabs (val (fst r) - (c - mod2 w / a)) <= 2002 / 1000 * (dl * W / a) + 7 / 10000000000000000 * (W * W / a) + 112 / 1000000000000000000 * Rabs (c - mod2 w / a) + 1 / 1000000000000000000.
Proof.
  intros F0 F1 F2 E0 E2 Ha Hc Hw HW1 HW2 HW3 He Hx Hd Hd2 l r. assert (T := tiny_pos). assert (T1 := tiny_30). assert (U := ulp_val). assert (Pw := Cm_pos w).
  assert (Ca : Cm (a, 0) = a) by (rewrite Cm_re; apply Rabs_pos_eq; lra).
  assert (Bx : Cm (cv x10) <= W + e). { assert (Q := Cm_le_add (cv x10) w). lra. }
  destruct (cdiv_err F fin val A x10 x00 F1 F0) as [Fl El]; [apply big_50; lra|rewrite E0, Ca; split; [apply small_50; lra|apply big_50; lra]|]. fold l in Fl, El. rewrite E0 in El.
  assert (Pl := Cm_pos (cv l)).
  assert (Dl : Cm (Csub (Cmul (cv l) (a, 0)) w) <= dl).
  { eapply Rle_trans; [|exact Hd]. eapply Rle_trans; [eapply Rle_trans; [|apply (Cm_tri (Csub (Cmul (cv l) (a, 0)) (cv x10)) (Csub (cv x10) w))]|].
    - right. f_equal. apply Cx_eq; cx; ring.
    - assert (8 * ulp * Cm (cv x10) <= 8 * ulp * (W + e)) by (apply Rmult_le_compat_l; [rewrite U; lra|exact Bx]). rewrite U in *. lra. }
  split; [exact Fl|]. split; [exact Dl|].
  set (y := Cmul (cv l) (a, 0)) in *. assert (Ey : Cm y = Cm (cv l) * a) by (unfold y; rewrite Cm_mul, Ca; ring).
  assert (By : Cm y <= 1001 / 1000 * W). { assert (Q := Cm_le_add y w). lra. }
  assert (Bl : Cm (cv l) <= 1000000). { apply Rmult_le_reg_r with a; [lra|]. rewrite <- Ey. lra. }
  destruct (norm_point l Fl Bl) as (Fm & Zm & Em). set (m := fcmul F l (cconj F l)) in *. assert (Qm := mod2_pos (cv l)).
  assert (Hm : mod2 (cv l) * a = mod2 y / a). { rewrite <- !Cm_sq, Ey. field. lra. }
  assert (Ll : mod2 (cv l) <= 1000000000000). { rewrite <- Cm_sq. apply Rle_trans with (1000000 * 1000000); [apply Rmult_le_compat; lra|lra]. }
  assert (Vy : mod2 y <= 10021 / 10000 * (W * W)). { rewrite <- Cm_sq. apply Rle_trans with ((1001 / 1000 * W) * (1001 / 1000 * W)); [apply Rmult_le_compat; try apply Cm_pos; lra|]. assert (0 <= W * W) by apply Rle_0_sqr. lra. }
  assert (Bm : Rabs (val (fst m)) <= 1001 / 1000 * mod2 (cv l) + tiny). { replace (val (fst m)) with ((val (fst m) - mod2 (cv l)) + mod2 (cv l)) by ring. eapply Rle_trans; [apply Rabs_triang|]. rewrite (Rabs_pos_eq (mod2 (cv l))) by exact Qm. rewrite U in Em. lra. }
  assert (La2 : mod2 (cv l) <= 500000000000). { apply Rmult_le_reg_r with (a * a); [apply Rmult_lt_0_compat; lra|]. rewrite <- Rmult_assoc, Hm. replace (mod2 y / a * a) with (mod2 y) by (field; lra). assert (100000000000 * a <= 100000000000 * a * (2 * a)). { rewrite <- (Rmult_1_r (100000000000 * a)) at 1. apply Rmult_le_compat_l; lra. } assert (0 <= W * W) by apply Rle_0_sqr. lra. }
  destruct (prod_point m x00 (val (fst m)) a Fm F0 (cv_re m Zm) E0) as (Fp & Zp & Ep); [lra|rewrite Rabs_pos_eq; lra|]. set (p := fcmul F m x00) in *.
  rewrite (Rabs_pos_eq a) in Ep by lra.
  set (V := W * W / a). assert (HV : 0 <= V) by (unfold V; apply Rmult_le_pos; [apply Rle_0_sqr|left; apply Rinv_0_lt_compat; lra]).
  assert (HVm : mod2 y / a <= 10021 / 10000 * V). { unfold V. replace (10021 / 10000 * (W * W / a)) with (10021 / 10000 * (W * W) / a) by (field; lra). apply Rmult_le_compat_r; [left; apply Rinv_0_lt_compat; lra|exact Vy]. }
  assert (V1 : V <= 100000000000) by (unfold V; apply Rmult_le_reg_r with a; [lra|]; replace (W * W / a * a) with (W * W) by (field; lra); exact HW3).
  assert (Ta : 0 <= tiny * a <= 1 / 100000000000000000000). { split; [apply Rmult_le_pos; lra|]. apply Rle_trans with (1 / 1000000000000000000000000000000 * 10000000000); [apply Rmult_le_compat; lra|lra]. }
  assert (Pm : Rabs (val (fst p) - mod2 y / a) <= 62 / 10 * ulp * V + 2 / 100000000000000000000).
  { replace (val (fst p) - mod2 y / a) with ((val (fst p) - val (fst m) * a) + (val (fst m) - mod2 (cv l)) * a) by (rewrite <- Hm; ring).
    eapply Rle_trans; [apply Rabs_triang|]. rewrite Rabs_mult, (Rabs_pos_eq a) by lra.
    assert (Q1 : Rabs (val (fst m)) * a <= (1001 / 1000 * mod2 (cv l) + tiny) * a) by (apply Rmult_le_compat_r; lra).
    assert (Q2 : Rabs (val (fst m) - mod2 (cv l)) * a <= (3 * ulp * mod2 (cv l) + tiny) * a) by (apply Rmult_le_compat_r; lra).
    replace ((1001 / 1000 * mod2 (cv l) + tiny) * a) with (1001 / 1000 * (mod2 (cv l) * a) + tiny * a) in Q1 by ring.
    replace ((3 * ulp * mod2 (cv l) + tiny) * a) with (3 * ulp * (mod2 (cv l) * a) + tiny * a) in Q2 by ring. rewrite Hm in Q1, Q2. rewrite U in *. lra. }
  assert (Yw : Rabs (mod2 y / a - mod2 w / a) <= 2001 / 1000 * (dl * W / a)).
  { replace (mod2 y / a - mod2 w / a) with ((Cm y * Cm y - Cm w * Cm w) * / a) by (rewrite !Cm_sq; field; lra).
    rewrite Rabs_mult, (Rabs_pos_eq (/ a)) by (left; apply Rinv_0_lt_compat; lra).
    replace (2001 / 1000 * (dl * W / a)) with ((dl * (2001 / 1000 * W)) * / a) by (field; lra). apply Rmult_le_compat_r; [left; apply Rinv_0_lt_compat; lra|].
    replace (Cm y * Cm y - Cm w * Cm w) with ((Cm y - Cm w) * (Cm y + Cm w)) by ring. rewrite Rabs_mult. apply Rmult_le_compat; try apply Rabs_pos.
    - assert (Q1 := Cm_le_add y w). assert (Q2 := Cm_le_add w y). rewrite (Cm_swap w y) in Q2. apply Rabs_le. lra.
    - rewrite Rabs_pos_eq by (assert (Q := Cm_pos y); lra). lra. }
  assert (Bp : Rabs (val (fst p)) <= 200000000000). { replace (val (fst p)) with ((val (fst p) - mod2 y / a) + mod2 y / a) by ring. eapply Rle_trans; [apply Rabs_triang|]. rewrite (Rabs_pos_eq (mod2 y / a)) by (apply Rmult_le_pos; [apply mod2_pos|left; apply Rinv_0_lt_compat; lra]). rewrite U in Pm. lra. }
  destruct (real_sub x11 p c (val (fst p)) F2 Fp E2 (cv_re p Zp)) as (Fr & Zr & Er); [lra|lra|]. fold r in Fr, Zr, Er. split; [exact Fr|]. split; [exact Zr|].
  set (t := c - mod2 w / a) in *. assert (G : Rabs (c - val (fst p) - t) <= 2001 / 1000 * (dl * W / a) + 62 / 10 * ulp * V + 2 / 100000000000000000000).
  { replace (c - val (fst p) - t) with (- ((val (fst p) - mod2 y / a) + (mod2 y / a - mod2 w / a))) by (unfold t; ring). rewrite Rabs_Ropp. eapply Rle_trans; [apply Rabs_triang|]. lra. }
  assert (G2 : Rabs (c - val (fst p)) <= Rabs t + Rabs (c - val (fst p) - t)). { replace (c - val (fst p)) with (t + (c - val (fst p) - t)) at 1 by ring. apply Rabs_triang. }
  replace (val (fst r) - t) with ((val (fst r) - (c - val (fst p))) + (c - val (fst p) - t)) by ring. eapply Rle_trans; [apply Rabs_triang|].
  assert (D0 : 0 <= dl * W / a) by (apply Rmult_le_pos; [apply Rmult_le_pos; lra|left; apply Rinv_0_lt_compat; lra]). fold V.
  assert (Pt := Rabs_pos t). rewrite U in *. lra.
Qed.

(** ** one node: x, y real, close to d0, d1 *)
Lemma rel_abs x d0 rho : 0 <= d0 -> 0 <= rho <= 1 / 100 -> Rabs (x - d0) <= rho * d0 -> 99 / 100 * d0 <= x <= 101 / 100 * d0.
Proof. intros H H1 H2. apply Rabs_le_inv in H2. assert (rho * d0 <= 1 / 100 * d0) by (apply Rmult_le_compat_r; lra). lra. Qed.
Lemma node_quot x y d0 d1 rho : 0 < d0 -> 0 < d1 -> 0 <= rho <= 1 / 100 -> Rabs (x - d0) <= rho * d0 -> Rabs (y - d1) <= rho * d1 ->
  Rabs ((x - y) / (x + y) - (d0 - d1) / (d0 + d1)) <= 102 / 100 * rho * (4 * (d0 * d1) / ((d0 + d1) * (d0 + d1))).
Proof.
  intros H0 H1 Hr Hx Hy. assert (Bx := rel_abs x d0 rho ltac:(lra) Hr Hx). assert (By := rel_abs y d1 rho ltac:(lra) Hr Hy).
  replace ((x - y) / (x + y) - (d0 - d1) / (d0 + d1)) with (2 * ((x - d0) * d1 - (y - d1) * d0) / ((x + y) * (d0 + d1))) by (field; split; lra).
  unfold Rdiv at 1. rewrite Rabs_mult, (Rabs_pos_eq (/ _)) by (left; apply Rinv_0_lt_compat, Rmult_lt_0_compat; lra).
  apply Rmult_le_reg_r with ((x + y) * (d0 + d1)); [apply Rmult_lt_0_compat; lra|]. rewrite Rmult_assoc, Rinv_l, Rmult_1_r by (apply Rgt_not_eq, Rmult_lt_0_compat; lra).
  assert (N : Rabs (2 * ((x - d0) * d1 - (y - d1) * d0)) <= 4 * rho * (d0 * d1)).
  { rewrite Rabs_mult, (Rabs_pos_eq 2) by lra. assert (Q : Rabs ((x - d0) * d1 - (y - d1) * d0) <= Rabs ((x - d0) * d1) + Rabs ((y - d1) * d0)).
    { unfold Rminus at 1. eapply Rle_trans; [apply Rabs_triang|]. rewrite Rabs_Ropp. lra. }
    rewrite !Rabs_mult, (Rabs_pos_eq d0), (Rabs_pos_eq d1) in Q by lra.
    assert (Rabs (x - d0) * d1 <= rho * d0 * d1) by (apply Rmult_le_compat_r; lra). assert (Rabs (y - d1) * d0 <= rho * d1 * d0) by (apply Rmult_le_compat_r; lra). lra. }
  eapply Rle_trans; [exact N|]. replace (102 / 100 * rho * (4 * (d0 * d1) / ((d0 + d1) * (d0 + d1))) * ((x + y) * (d0 + d1))) with (4 * rho * (d0 * d1) * (102 / 100 * ((x + y) / (d0 + d1)))) by (field; lra).
  rewrite <- (Rmult_1_r (4 * rho * (d0 * d1))) at 1. apply Rmult_le_compat_l; [repeat apply Rmult_le_pos; lra|].
  assert (99 / 100 <= (x + y) / (d0 + d1)). { apply Rmult_le_reg_r with (d0 + d1); [lra|]. unfold Rdiv at 2. rewrite Rmult_assoc, Rinv_l by lra. lra. } lra.
Qed.
Lemma node_harm x y d0 d1 rho : 0 < d0 -> 0 < d1 -> 0 <= rho <= 1 / 100 -> Rabs (x - d0) <= rho * d0 -> Rabs (y - d1) <= rho * d1 ->
  Rabs (2 * (x * y) / (x + y) - 2 * (d0 * d1) / (d0 + d1)) <= rho * (2 * (d0 * d1) / (d0 + d1)).
Proof.
  intros H0 H1 Hr Hx Hy. assert (Bx := rel_abs x d0 rho ltac:(lra) Hr Hx). assert (By := rel_abs y d1 rho ltac:(lra) Hr Hy). apply Rabs_le_inv in Hx. apply Rabs_le_inv in Hy.
  assert (Q1 : x * y * (d0 + d1) <= (1 + rho) * (d0 * d1) * (x + y)).
  { assert (y * (x * d0) <= (d1 * (1 + rho)) * (x * d0)) by (apply Rmult_le_compat_r; [apply Rmult_le_pos|]; lra). assert (x * (y * d1) <= (d0 * (1 + rho)) * (y * d1)) by (apply Rmult_le_compat_r; [apply Rmult_le_pos|]; lra). lra. }
  assert (Q2 : (1 - rho) * (d0 * d1) * (x + y) <= x * y * (d0 + d1)).
  { assert ((d1 * (1 - rho)) * (x * d0) <= y * (x * d0)) by (apply Rmult_le_compat_r; [apply Rmult_le_pos|]; lra). assert ((d0 * (1 - rho)) * (y * d1) <= x * (y * d1)) by (apply Rmult_le_compat_r; [apply Rmult_le_pos|]; lra). lra. }
  assert (P : 0 < (x + y) * (d0 + d1)) by (apply Rmult_lt_0_compat; lra).
  assert (U : 2 * (x * y) / (x + y) <= (1 + rho) * (2 * (d0 * d1) / (d0 + d1))).
  { apply Rmult_le_reg_r with ((x + y) * (d0 + d1)); [exact P|]. replace (2 * (x * y) / (x + y) * ((x + y) * (d0 + d1))) with (2 * (x * y * (d0 + d1))) by (field; lra). replace ((1 + rho) * (2 * (d0 * d1) / (d0 + d1)) * ((x + y) * (d0 + d1))) with (2 * ((1 + rho) * (d0 * d1) * (x + y))) by (field; lra). lra. }
  assert (L : (1 - rho) * (2 * (d0 * d1) / (d0 + d1)) <= 2 * (x * y) / (x + y)).
  { apply Rmult_le_reg_r with ((x + y) * (d0 + d1)); [exact P|]. replace (2 * (x * y) / (x + y) * ((x + y) * (d0 + d1))) with (2 * (x * y * (d0 + d1))) by (field; lra). replace ((1 - rho) * (2 * (d0 * d1) / (d0 + d1)) * ((x + y) * (d0 + d1))) with (2 * ((1 - rho) * (d0 * d1) * (x + y))) by (field; lra). lra. }
  apply Rabs_le. lra.
Qed.
Lemma node_point (x y z' : C) a b d0 d1 om rho : cfin x -> cfin y -> cfin z' -> cv x = (a, 0) -> cv y = (b, 0) ->
  87 / 10 <= d0 <= 17400000 -> 87 / 10 <= d1 <= 17400000 -> 0 <= rho <= 1 / 100 -> Rabs (a - d0) <= rho * d0 -> Rabs (b - d1) <= rho * d1 ->
  Cm om = 1 -> Cm (Csub (cv z') om) <= 15 / 10000000000000000 ->
  let g := cscal F (cadd F x y) (half F) in let l := fcdiv F (cconj F (fcmul F (cscal F (csub F x y) (half F)) (cconj F z'))) g in
  let r := csub F (cconj F g) (fcmul F (fcmul F l (cconj F l)) g) in
  let am := (d0 + d1) / 2 in let hm := 2 * (d0 * d1) / (d0 + d1) in
  cfin g /\ val (snd g) = 0 /\ Rabs (val (fst g) - am) <= (rho + 3 / 100000000) * am /\
  cfin l /\ Cm (Csub (cv l) (Cmul (Cof ((d0 - d1) / (2 * am))) om)) <= (102 / 100 * rho + 2 / 100000000) * (hm / am) /\
  cfin r /\ val (snd r) = 0 /\ Rabs (val (fst r) - hm) <= (rho + 3 / 100000000) * hm.
Proof.
  intros Fx Fy Fz Ex Ey H0 H1 Hr Ha Hb Hom Hz g l r am hm. assert (T := tiny_pos). assert (T1 := tiny_30). assert (U := ulp_val).
  assert (Ba := rel_abs a d0 rho ltac:(lra) Hr Ha). assert (Bb := rel_abs b d1 rho ltac:(lra) Hr Hb).
  set (A0 := (a + b) / 2). set (c := (a - b) / 2). assert (Cc : Rabs c <= A0) by (unfold c, A0; apply Rabs_le; lra). assert (BA : 86 / 10 <= A0 <= 17600000) by (unfold A0; lra).
  destruct (real_add x y a b Fx Fy Ex Ey) as (Fs & Zs & Es); [rewrite Rabs_pos_eq; lra|rewrite Rabs_pos_eq; lra|].
  destruct (real_sub x y a b Fx Fy Ex Ey) as (Ft & Zt & Et); [rewrite Rabs_pos_eq; lra|rewrite Rabs_pos_eq; lra|].
  destruct (half_point (cadd F x y) (a + b) Fs Zs) as (Fg & Zg & Eg); [rewrite Rabs_pos_eq; lra|exact Es|]. fold g in Fg, Zg, Eg.
  destruct (half_point (csub F x y) (a - b) Ft Zt) as (Fh & Zh & Eh); [apply Rabs_le; lra|exact Et|]. set (cf := cscal F (csub F x y) (half F)) in *.
  replace ((a + b) / 2) with A0 in Eg by reflexivity. replace ((a - b) / 2) with c in Eh by reflexivity. replace (Rabs (a + b) / 2) with A0 in Eg by (rewrite Rabs_pos_eq by lra; reflexivity).
  replace (Rabs (a - b) / 2) with (Rabs c) in Eh by (unfold c, Rdiv; rewrite Rabs_mult, (Rabs_pos_eq (/ 2)) by lra; reflexivity).
  assert (Eg' : Rabs (val (fst g) - A0) <= 7 / 10000000000000000 * A0) by (rewrite U in Eg; lra). clear Eg.
  set (ga := val (fst g)) in *. assert (Bg : (1 - 7 / 10000000000000000) * A0 <= ga <= (1 + 7 / 10000000000000000) * A0) by (apply Rabs_le_inv in Eg'; lra).
  assert (Eh' : Rabs (val (fst cf) - c) <= 7 / 10000000000000000 * A0) by (rewrite U in Eh; lra). clear Eh.
  (* g10 *)
  destruct (cconj_ok F fin val A z' Fz) as [Fzc Ezc]. assert (Com : Cm (Cconj om) = 1) by (rewrite Cm_conj; exact Hom).
  assert (Zc : Cm (Csub (cv (cconj F z')) (Cconj om)) <= 15 / 10000000000000000). { rewrite Ezc. replace (Csub (Cconj (cv z')) (Cconj om)) with (Cconj (Csub (cv z') om)) by (apply Cx_eq; cx; ring). rewrite Cm_conj. exact Hz. }
  assert (Ccf : Cm (cv cf) <= 1001 / 1000 * A0). { rewrite (cv_re cf Zh), Cm_re. replace (val (fst cf)) with ((val (fst cf) - c) + c) by ring. eapply Rle_trans; [apply Rabs_triang|]. lra. }
  destruct (mulz_err' F fin val A (Cconj om) (cconj F z') cf Fzc Fh Com Zc) as [Fb Eb]; [assert (Q := big_40 17600000 ltac:(lra)); replace (10 ^ 41) with (10 * 10 ^ 40) by (simpl; ring); lra|].
  set (bb := fcmul F cf (cconj F z')) in *.
  assert (Eb' : Cm (Csub (cv bb) (Cmul (Cof c) (Cconj om))) <= 26 / 10000000000000000 * A0).
  { assert (Q : Cm (Csub (cv bb) (Cmul (Cof c) (Cconj om))) <= Cm (Csub (cv bb) (Cmul (Cconj om) (cv cf))) + Rabs (val (fst cf) - c) * Cm (Cconj om)).
    { rewrite <- Cm_re, <- Cm_mul. eapply Rle_trans; [|apply Cm_tri]. right. f_equal. rewrite (cv_re cf Zh). apply Cx_eq; unfold Cof; cx; ring. }
    rewrite Com, Rmult_1_r in Q. lra. }
  destruct (cconj_ok F fin val A bb Fb) as [Fbc Ebc]. destruct (cconj_ok F fin val A g Fg) as [Fgc Egc].
  set (w := Cmul (Cof c) om). assert (Ew : Cm w = Rabs c) by (unfold w; rewrite Cm_mul, Hom, Rmult_1_r; apply Cm_re).
  assert (Mw : mod2 w = c * c). { rewrite <- Cm_sq, Ew. destruct (Rcase_abs c); [rewrite Rabs_left by lra|rewrite Rabs_right by lra]; ring. }
  assert (E10 : Cm (Csub (cv (cconj F bb)) w) <= 26 / 10000000000000000 * A0).
  { rewrite Ebc. replace (Csub (Cconj (cv bb)) w) with (Cconj (Csub (cv bb) (Cmul (Cof c) (Cconj om)))) by (unfold w; apply Cx_eq; unfold Cof; cx; ring). rewrite Cm_conj. exact Eb'. }
  assert (EA : A0 * A0 <= 20000000 * A0) by (apply Rmult_le_compat_r; lra).
  destruct (ldl_point g (cconj F bb) (cconj F g) ga ga w A0 (26 / 10000000000000000 * A0) (36 / 10000000000000000 * A0)) as (Fl & El & Fr & Zr & Er); try assumption; try lra.
  { apply cv_re, Zg. } { rewrite Egc, (cv_re g Zg). apply Cx_eq; cx; [reflexivity|]. unfold ga. lra. } { rewrite Rabs_pos_eq; lra. }
  fold l in Fl, El, Fr, Zr, Er. fold r in Fr, Zr, Er.
  (* comparisons *)
  assert (Sum : am = (d0 + d1) / 2) by reflexivity. assert (Bam : 87 / 10 <= am <= 17400000) by (unfold am; lra).
  assert (HH : hm * am = d0 * d1) by (unfold hm, am; field; lra).
  assert (Bh : 87 / 10 <= hm). { unfold hm. apply Rmult_le_reg_r with (d0 + d1); [lra|]. unfold Rdiv at 2. rewrite Rmult_assoc, Rinv_l by lra. assert (87 / 10 * d1 <= d0 * d1) by (apply Rmult_le_compat_r; lra). assert (d0 * (87 / 10) <= d0 * d1) by (apply Rmult_le_compat_l; lra). lra. }
  assert (AD : Rabs (A0 - am) <= rho * am). { unfold A0, am. replace ((a + b) / 2 - (d0 + d1) / 2) with (((a - d0) + (b - d1)) / 2) by field. apply Rabs_le_inv in Ha. apply Rabs_le_inv in Hb. apply Rabs_le. lra. }
  assert (Aam : A0 <= 101 / 100 * am) by (apply Rabs_le_inv in AD; assert (rho * am <= 1 / 100 * am) by (apply Rmult_le_compat_r; lra); lra).
  assert (Aam' : 99 / 100 * am <= A0) by (apply Rabs_le_inv in AD; assert (rho * am <= 1 / 100 * am) by (apply Rmult_le_compat_r; lra); lra).
  assert (K : am <= 2000000 * hm) by lra.
  split; [exact Fg|]. split; [exact Zg|]. split.
  { fold ga. replace (ga - am) with ((ga - A0) + (A0 - am)) by ring. eapply Rle_trans; [apply Rabs_triang|]. lra. }
  split; [exact Fl|]. split.
  { assert (NQ := node_quot a b d0 d1 rho ltac:(lra) ltac:(lra) Hr Ha Hb).
    replace (4 * (d0 * d1) / ((d0 + d1) * (d0 + d1))) with (hm / am) in NQ by (unfold hm, am; field; lra).
    assert (Bl : Cm (cv l) <= 1001 / 1000).
    { apply Rmult_le_reg_r with ga; [lra|]. replace ga with (Cm (ga, 0)) at 1 by (rewrite Cm_re; apply Rabs_pos_eq; lra). rewrite <- Cm_mul. assert (Q := Cm_le_add (Cmul (cv l) (ga, 0)) w). lra. }
    set (q0 := c / A0). assert (Q1 : Cm (Csub (cv l) (Cmul (Cof q0) om)) * A0 <= 45 / 10000000000000000 * A0).
    { replace A0 with (Cm (A0, 0)) at 1 by (rewrite Cm_re; apply Rabs_pos_eq; lra). rewrite <- Cm_mul.
      apply Rle_trans with (Cm (Csub (Cmul (cv l) (ga, 0)) w) + Cm (cv l) * Rabs (A0 - ga)).
      - rewrite <- (Cm_re (A0 - ga)), <- Cm_mul. eapply Rle_trans; [|apply Cm_tri]. right. f_equal. unfold w. apply Cx_eq; unfold Cof, q0; cx; field; lra.
      - rewrite Rabs_minus_sym in Eg'. assert (Cm (cv l) * Rabs (A0 - ga) <= 1001 / 1000 * (7 / 10000000000000000 * A0)) by (apply Rmult_le_compat; [apply Cm_pos|apply Rabs_pos|exact Bl|exact Eg']). lra. }
    apply Rmult_le_reg_r in Q1; [|lra].
    assert (Q2 : Rabs (q0 - (d0 - d1) / (2 * am)) <= 102 / 100 * rho * (hm / am)).
    { replace q0 with ((a - b) / (a + b)) by (unfold q0, c, A0; field; lra). replace (2 * am) with (d0 + d1) by (unfold am; field). exact NQ. }
    assert (Q3 : 5 / 1000000000 <= hm / am * 1 / 100). { apply Rmult_le_reg_r with am; [lra|]. replace (hm / am * 1 / 100 * am) with (hm / 100) by (field; lra). lra. }
    eapply Rle_trans; [eapply Rle_trans; [|apply (Cm_tri (Csub (cv l) (Cmul (Cof q0) om)) (Cmul (Cof (q0 - (d0 - d1) / (2 * am))) om))]|].
    - right. f_equal. apply Cx_eq; unfold Cof; cx; ring.
    - rewrite (Cm_mul (Cof _)), Hom, Rmult_1_r. replace (Cm (Cof (q0 - (d0 - d1) / (2 * am)))) with (Rabs (q0 - (d0 - d1) / (2 * am))) by (symmetry; apply Cm_re). lra. }
  split; [exact Fr|]. split; [exact Zr|].
  (* d11 *)
  rewrite Mw in Er. assert (NH := node_harm a b d0 d1 rho ltac:(lra) ltac:(lra) Hr Ha Hb). fold hm in NH.
  assert (HA : A0 - c * c / A0 = 2 * (a * b) / (a + b)) by (unfold A0, c; field; lra).
  assert (Rg : A0 / ga <= 1001 / 1000). { apply Rmult_le_reg_r with ga; [lra|]. unfold Rdiv at 1. rewrite Rmult_assoc, Rinv_l by lra. lra. }
  assert (Rg0 : 0 <= A0 / ga) by (apply Rmult_le_pos; [lra|left; apply Rinv_0_lt_compat; lra]).
  assert (C2 : 0 <= c * c <= A0 * A0). { split; [apply Rle_0_sqr|]. assert (Q := Rmult_le_compat _ _ _ _ (Rabs_pos c) (Rabs_pos c) Cc Cc). rewrite <- Rabs_mult, (Rabs_pos_eq (c * c)) in Q by apply Rle_0_sqr. exact Q. }
  assert (Dc : Rabs (ga - c * c / ga - (A0 - c * c / A0)) <= 22 / 10 * (7 / 10000000000000000 * A0)).
  { replace (ga - c * c / ga - (A0 - c * c / A0)) with ((ga - A0) * (1 + c * c / (ga * A0))) by (field; lra). rewrite Rabs_mult.
    assert (0 <= c * c / (ga * A0) <= 1001 / 1000).
    { split; [apply Rmult_le_pos; [lra|left; apply Rinv_0_lt_compat, Rmult_lt_0_compat; lra]|]. apply Rle_trans with (A0 * A0 / (ga * A0)); [apply Rmult_le_compat_r; [left; apply Rinv_0_lt_compat, Rmult_lt_0_compat; lra|lra]|]. replace (A0 * A0 / (ga * A0)) with (A0 / ga) by (field; lra). exact Rg. }
    rewrite (Rabs_pos_eq (1 + _)) by lra. apply Rle_trans with ((7 / 10000000000000000 * A0) * (22 / 10)); [apply Rmult_le_compat; try apply Rabs_pos; lra|lra]. }
  assert (Bd : Rabs (ga - c * c / ga) <= 1001 / 1000 * A0 + 1 / 1000 * A0).
  { assert (0 <= c * c / ga <= 1001 / 1000 * A0). { split; [apply Rmult_le_pos; [lra|left; apply Rinv_0_lt_compat; lra]|]. apply Rle_trans with (A0 * A0 / ga); [apply Rmult_le_compat_r; [left; apply Rinv_0_lt_compat; lra|lra]|]. replace (A0 * A0 / ga) with (A0 / ga * A0) by (field; lra). apply Rmult_le_compat_r; lra. } apply Rabs_le. lra. }
  replace (36 / 10000000000000000 * A0 * A0 / ga) with (36 / 10000000000000000 * (A0 / ga * A0)) in Er by (field; lra). replace (A0 * A0 / ga) with (A0 / ga * A0) in Er by (field; lra).
  assert (Rg2 : A0 / ga * A0 <= 1001 / 1000 * A0) by (apply Rmult_le_compat_r; lra).
  assert (Er' : Rabs (val (fst r) - (ga - c * c / ga)) <= 85 / 10000000000000000 * A0) by lra.
  replace (val (fst r) - hm) with ((val (fst r) - (ga - c * c / ga)) + ((ga - c * c / ga - (A0 - c * c / A0)) + (2 * (a * b) / (a + b) - hm))) by (rewrite <- HA; ring).
  eapply Rle_trans; [apply Rabs_triang|]. eapply Rle_trans; [apply Rplus_le_compat_l, Rabs_triang|]. lra.
Qed.

(** ** subtrees *)
Variable ztab : list C.
Hypothesis HZ : table_near F fin val ztab.
Definition gsub (h : nat) (v : list C) : tree F :=
  match h with
  | O => Leaf F (nth 0 v d)
  | S _ => ltree F ztab h (vspl0 F h v) (map (cconj F) (vspl1 F ztab h v)) (map (cconj F) (vspl0 F h v))
  end.
Lemma ltree_gsub h g00 g10 g11 : ltree F ztab (S h) g00 g10 g11 = Node F (vl10 F (2 ^ S h) g00 g10) (gsub h g00) (gsub h (vd11 F (2 ^ S h) g00 g10 g11)).
Proof. destruct h; reflexivity. Qed.
(** real entries with relative error rho *)
Definition rvec (n : nat) (v : list C) (dv : nat -> R) (rho : R) : Prop :=
  vfin n v /\ forall i, (i < n)%nat -> val (snd (nth i v d)) = 0 /\ Rabs (val (fst (nth i v d)) - dv i) <= rho * dv i.
(** the exact entries of a node *)
Definition lex (h : nat) (dv : nat -> R) (i : nat) : Cx := Cmul (Cof ((dv (2 * i)%nat - dv (2 * i + 1)%nat) / (2 * am2 dv i))) (pt (S (S h)) (2 * i)).
Fixpoint near (P : R) (h : nat) (dv : nat -> R) (t : tree F) : Prop :=
  match h, t with
  | O, Leaf _ x => cfin x /\ Rabs (val (fst x) - dv 0%nat) <= P * dv 0%nat
  | S h', Node _ l a b => vfin (2 ^ S h') l /\ (forall i, (i < 2 ^ S h')%nat -> Cm (Csub (X l i) (lex h' dv i)) <= 2 * P * (hm2 dv i / am2 dv i)) /\
      near P h' (am2 dv) a /\ near P h' (hm2 dv) b
  | _, _ => False
  end.
Definition inr (n : nat) (dv : nat -> R) : Prop := forall i, (i < n)%nat -> 87 / 10 <= dv i <= 17400000.
Lemma hm2_val' n dv i : inr (2 * n) dv -> (i < n)%nat -> hm2 dv i = 2 * (dv (2 * i)%nat * dv (2 * i + 1)%nat) / (dv (2 * i)%nat + dv (2 * i + 1)%nat).
Proof.
  intros H Hi. rewrite (hm2_val n); [|lia|intros j Hj; specialize (H j Hj); lra|exact Hi]. unfold am2. assert (H0 := H (2 * i)%nat ltac:(lia)). assert (H1 := H (2 * i + 1)%nat ltac:(lia)). field. lra.
Qed.
Lemma inr_am n dv : inr (2 * n) dv -> inr n (am2 dv).
Proof. intros H i Hi. unfold am2. assert (H0 := H (2 * i)%nat ltac:(lia)). assert (H1 := H (2 * i + 1)%nat ltac:(lia)). lra. Qed.
Lemma inr_hm n dv : inr (2 * n) dv -> inr n (hm2 dv).
Proof.
  intros H i Hi. assert (H0 := H (2 * i)%nat ltac:(lia)). assert (H1 := H (2 * i + 1)%nat ltac:(lia)). split.
  - rewrite (hm2_val' n) by assumption. set (x := dv (2 * i)%nat) in *. set (y := dv (2 * i + 1)%nat) in *. apply Rmult_le_reg_r with (x + y); [lra|]. unfold Rdiv at 2. rewrite Rmult_assoc, Rinv_l by lra.
    assert (87 / 10 * y <= x * y) by (apply Rmult_le_compat_r; lra). assert (x * (87 / 10) <= x * y) by (apply Rmult_le_compat_l; lra). lra.
  - eapply Rle_trans; [apply (hm2_le n)|apply (inr_am n dv H i Hi)]; try lia. intros j Hj. specialize (H j Hj). lra.
Qed.
Lemma Cm_pt k i : Cm (pt k i) = 1.
Proof. assert (H := sq_pt k i). unfold Cm. change (mod2 (pt k i)) with (sq (pt k i)). rewrite H. apply sqrt_1. Qed.
Lemma sub_near P : P <= 1 / 100 -> forall h dv v rho, (S h <= 10)%nat -> inr (2 ^ S h) dv -> rvec (2 ^ S h) v dv rho -> 0 <= rho -> rho + INR h * (3 / 100000000) <= P -> near P h dv (gsub h v).
Proof.
  intros HP. induction h as [|h IH]; intros dv v rho Hh Hd Hv Hr HrP.
  - cbn [gsub near]. destruct Hv as [[Lv Fv] Ev]. split; [apply Fv; simpl; lia|]. destruct (Ev 0%nat ltac:(simpl; lia)) as [_ E]. eapply Rle_trans; [exact E|]. assert (B := Hd 0%nat ltac:(simpl; lia)). simpl in HrP. apply Rmult_le_compat_r; lra.
  - assert (E2 : (2 ^ S (S h) = 2 * 2 ^ S h)%nat) by reflexivity. rewrite E2 in Hd. destruct Hv as [[Lv Fv] Ev]. rewrite E2 in Lv, Fv, Ev. set (n := (2 ^ S h)%nat) in *. rewrite S_INR in HrP. assert (Ph := pos_INR h).
    change (gsub (S h) v) with (ltree F ztab (S h) (vspl0 F (S h) v) (map (cconj F) (vspl1 F ztab (S h) v)) (map (cconj F) (vspl0 F (S h) v))). rewrite ltree_gsub. fold n.
    set (g := vspl0 F (S h) v). set (b := map (cconj F) (vspl1 F ztab (S h) v)). set (gc := map (cconj F) g).
    assert (NP : forall i, (i < n)%nat -> let l := nth i (vl10 F n g b) d in let r := nth i (vd11 F n g b gc) d in
      cfin (nth i g d) /\ val (snd (nth i g d)) = 0 /\ Rabs (val (fst (nth i g d)) - am2 dv i) <= (rho + 3 / 100000000) * am2 dv i /\
      cfin l /\ Cm (Csub (cv l) (lex h dv i)) <= (102 / 100 * rho + 2 / 100000000) * (hm2 dv i / am2 dv i) /\
      cfin r /\ val (snd r) = 0 /\ Rabs (val (fst r) - hm2 dv i) <= (rho + 3 / 100000000) * hm2 dv i).
    { intros i Hi. assert (L1 : length (vspl1 F ztab (S h) v) = n) by apply tab_length. assert (L0 : length g = n) by apply tab_length.
      unfold vl10, vd11. rewrite !nth_vop by exact Hi. unfold vl10. rewrite !nth_cj by (rewrite vop_length; exact Hi). rewrite !nth_vop by exact Hi.
      unfold gc, b. rewrite !nth_cj by (rewrite ?L1, ?L0; exact Hi).
      assert (Eg : nth i g d = cscal F (cadd F (nth (2 * i) v d) (nth (2 * i + 1) v d)) (half F)) by (unfold g, vspl0; rewrite (nth_tab (2 ^ S h)) by exact Hi; reflexivity).
      assert (Eb : nth i (vspl1 F ztab (S h) v) d = fcmul F (cscal F (csub F (nth (2 * i) v d) (nth (2 * i + 1) v d)) (half F)) (cconj F (nth (2 ^ S h + i) ztab d))) by (unfold vspl1; rewrite (nth_tab (2 ^ S h)) by exact Hi; reflexivity).
      rewrite Eg, Eb. rewrite (hm2_val' n) by assumption. unfold lex, am2.
      destruct (Ev (2 * i)%nat ltac:(lia)) as [Z0 A0]. destruct (Ev (2 * i + 1)%nat ltac:(lia)) as [Z1 A1].
      destruct HZ as [_ HZ']. destruct (HZ' (2 ^ S h + i)%nat) as (Q1 & Q2 & Q3).
      { assert (P9 : (n <= 2 ^ 9)%nat) by (apply Nat.pow_le_mono_r; lia). change (2 ^ 9)%nat with 512%nat in P9. fold n. lia. }
      rewrite table_pt in Q3 by (assumption || lia).
      apply (node_point (nth (2 * i) v d) (nth (2 * i + 1) v d) (nth (2 ^ S h + i) ztab d) (val (fst (nth (2 * i) v d))) (val (fst (nth (2 * i + 1) v d))) (dv (2 * i)%nat) (dv (2 * i + 1)%nat) (pt (S (S h)) (2 * i)) rho).
      - apply Fv; lia. - apply Fv; lia. - split; assumption. - apply cv_re, Z0. - apply cv_re, Z1. - apply Hd; lia. - apply Hd; lia. - lra. - exact A0. - exact A1. - apply Cm_pt. - exact Q3. }
    cbn [near]. fold n. split; [split; [apply vop_length|intros i Hi; apply (NP i Hi)]|]. split.
    { intros i Hi. destruct (NP i Hi) as (_ & _ & _ & _ & E & _). eapply Rle_trans; [exact E|]. assert (B1 := inr_am n dv Hd i Hi). assert (B2 := inr_hm n dv Hd i Hi).
      apply Rmult_le_compat_r; [apply Rmult_le_pos; [lra|left; apply Rinv_0_lt_compat; lra]|]. lra. }
    split; (apply IH with (rho := rho + 3 / 100000000); [lia| | |lra|lra]).
    + apply inr_am, Hd.
    + split; [split; [apply tab_length|intros i Hi; apply (NP i Hi)]|]. intros i Hi. split; apply (NP i Hi).
    + apply inr_hm, Hd.
    + split; [split; [apply vop_length|intros i Hi; apply (NP i Hi)]|]. intros i Hi. split; apply (NP i Hi).
Qed.
End Node.
