(** P_near.v -- the table of fft.hpp, converted to floating point, is near the roots of unity; exact arithmetic is accurate. *)
From Verif Require Import Base Spec SpecR SpecF M_float M_exact M_table P_brv P_cplx P_l2 P_table P_err.
From Coq Require Import Lra Psatz.
Open Scope R_scope.

Definition lit_ok (l : Z * Z) : bool := ((Z.abs (fst l) <=? 10 ^ 40) && (Z.abs (fst l) <=? 2 * 10 ^ snd l) && (1 <=? snd l) && (snd l <=? 40))%Z.
Lemma lits_ok : forallb (fun e => lit_ok (fst e) && lit_ok (snd e)) table_literals = true.
Proof. vm_compute. reflexivity. Qed.

Lemma Rabs_le_inv x a : Rabs x <= a -> - a <= x <= a.
Proof. unfold Rabs. destruct (Rcase_abs x); lra. Qed.

Section S.
Variable F : fops.
Variable fin : D F -> Prop.
Variable val : D F -> R.
Hypothesis A : accurate F fin val.
Lemma flit_err l : lit_ok l = true -> fin (flit F (fst l) (snd l)) /\ Rabs (val (flit F (fst l) (snd l)) - IZR (fst l) / IZR (10 ^ snd l)) <= 31 / 10 * ulp * Rabs (IZR (fst l) / IZR (10 ^ snd l)) + tiny.
Proof.
  destruct l as [m k]. unfold lit_ok, flit. cbn [fst snd]. intros H. apply andb_prop in H. destruct H as [H H4]. apply andb_prop in H. destruct H as [H H3]. apply andb_prop in H. destruct H as [H1 H2].
  apply Z.leb_le in H1, H2, H3, H4. assert (Hk : (10 ^ 1 <= 10 ^ k <= 10 ^ 40)%Z) by (split; apply Z.pow_le_mono_r; lia).
  destruct (acc_lit _ _ _ A m H1) as [F1 E1]. destruct (acc_lit _ _ _ A (10 ^ k)%Z ltac:(lia)) as [F2 E2].
  set (x := val (fofz F m)) in *. set (y := val (fofz F (10 ^ k))) in *. set (P := IZR (10 ^ k)) in *. set (M := IZR m) in *.
  assert (U : 0 < ulp <= / 1000000) by (unfold ulp; lra). assert (HP : 10 <= P) by (unfold P; change 10 with (IZR (10 ^ 1)); apply IZR_le; lia). rewrite (Rabs_right P) in E2 by lra.
  assert (Dy : Rabs (y - P) <= / 1000000 * P) by (eapply Rle_trans; [exact E2|]; apply Rmult_le_compat_r; lra). apply Rabs_le_inv in Dy.
  pose proof (Rabs_pos M) as PM. assert (Bx : Rabs x <= 2 * Rabs M).
  { replace x with (M + (x - M)) by ring. eapply Rle_trans; [apply Rabs_triang|]. assert (ulp * Rabs M <= / 1000000 * Rabs M) by (apply Rmult_le_compat_r; lra). lra. }
  assert (B40 : Rabs M <= 10 ^ 40). { unfold M. rewrite <- abs_IZR, pow_IZR. apply IZR_le. exact H1. }
  destruct (acc_div _ _ _ A _ _ F1 F2) as [F3 E3].
  { fold x. eapply Rle_trans; [exact Bx|]. apply huge_40. change (10 ^ 41) with (10 * 10 ^ 40). lra. } { fold y. rewrite Rabs_right; lra. }
  fold x y in E3. split; [exact F3|]. set (r := val (fdiv F (fofz F m) (fofz F (10 ^ k)))) in *.
  assert (Py : 0 < y) by lra. assert (D : Rabs (x / y - M / P) <= 2001 / 1000 * ulp * Rabs (M / P)).
  { replace (x / y - M / P) with (((x - M) * P - M * (y - P)) / (y * P)) by (field; lra). unfold Rdiv. rewrite !Rabs_mult, !Rabs_inv, Rabs_mult, (Rabs_right y), (Rabs_right P) by lra.
    apply (Rmult_le_reg_r (y * P)); [apply Rmult_lt_0_compat; lra|]. rewrite Rmult_assoc, Rinv_l, Rmult_1_r by (apply Rgt_not_eq, Rmult_lt_0_compat; lra).
    replace (2001 * / 1000 * ulp * (Rabs M * / P) * (y * P)) with (2001 / 1000 * (ulp * Rabs M) * y) by (field; lra).
    eapply Rle_trans; [apply Rabs_triang|]. rewrite Rabs_Ropp, !Rabs_mult, (Rabs_right P) by lra.
    assert (Q1 : Rabs (x - M) * P <= ulp * Rabs M * P) by (apply Rmult_le_compat_r; lra). assert (Q2 : Rabs M * Rabs (y - P) <= Rabs M * (ulp * P)) by (apply Rmult_le_compat_l; lra).
    assert (Q3 : 0 <= ulp * Rabs M) by (apply Rmult_le_pos; lra). assert (Q4 : 2001 / 1000 * (ulp * Rabs M) * (999999 / 1000000 * P) <= 2001 / 1000 * (ulp * Rabs M) * y) by (apply Rmult_le_compat_l; lra).
    assert (Q5 : 0 <= ulp * Rabs M * P) by (apply Rmult_le_pos; lra). lra. }
  assert (Q : Rabs (x / y) <= Rabs (M / P) + 2001 / 1000 * ulp * Rabs (M / P)). { replace (x / y) with (M / P + (x / y - M / P)) at 1 by ring. eapply Rle_trans; [apply Rabs_triang|]. lra. }
  replace (r - M / P) with ((r - x / y) + (x / y - M / P)) by ring. eapply Rle_trans; [apply Rabs_triang|]. pose proof (Rabs_pos (M / P)) as P0.
  assert (Q6 : ulp * Rabs (x / y) <= ulp * (Rabs (M / P) + 2001 / 1000 * ulp * Rabs (M / P))) by (apply Rmult_le_compat_l; lra).
  assert (Q7 : 0 <= ulp * Rabs (M / P)) by (apply Rmult_le_pos; lra). assert (Q8 : ulp * (ulp * Rabs (M / P)) <= / 1000000 * (ulp * Rabs (M / P))) by (apply Rmult_le_compat_r; lra). lra.
Qed.

Lemma source_near : table_near F fin val (source_table F).
Proof.
  split; [apply source_length|]. intros k Hk z.
  set (e := nth k table_literals ((0, 0), (0, 0))%Z).
  assert (Hk' : (k < length table_literals)%nat) by (rewrite literals_length; exact Hk).
  assert (N : forall G : fops, nth k (source_table G) (fofz G 0, fofz G 0) = (flit G (fst (fst e)) (snd (fst e)), flit G (fst (snd e)) (snd (snd e)))).
  { intros G. unfold source_table. set (f := fun e : Z * Z * (Z * Z) => _). rewrite (nth_indep _ _ (f ((0, 0), (0, 0))%Z)) by (rewrite map_length; exact Hk'). rewrite map_nth. reflexivity. }
  assert (C := lits_ok). rewrite forallb_forall in C. specialize (C e (nth_In _ _ Hk')). apply andb_prop in C. destruct C as [C1 C2].
  destruct (flit_err _ C1) as [F1 E1]. destruct (flit_err _ C2) as [F2 E2]. unfold z. rewrite (N F). cbn [fst snd]. split; [exact F1|]. split; [exact F2|].
  set (W := (IZR (fst (fst e)) / IZR (10 ^ snd (fst e)), IZR (fst (snd e)) / IZR (10 ^ snd (snd e))) : Cx).
  assert (NR : nth k (source_table RF) Czero = W) by exact (N RF).
  assert (S := source_distance k Hk). rewrite NR in S.
  assert (T : nth k exact_table Czero = cis (PI * INR (brv 10 k) / 1024)) by (rewrite P_cplx.table_nth, P_cplx.zeta_pow by exact Hk; reflexivity). rewrite T.
  set (c := cis (PI * INR (brv 10 k) / 1024)) in *. change (sqrt (mod2 (Csub W c))) with (Cm (Csub W c)) in S. change (Cmod ?x) with (Cm x).
  assert (Cc : Cm c = 1). { unfold c, Cm, mod2, cis. cbn [fst snd]. assert (E := sin2_cos2 (PI * INR (brv 10 k) / 1024)). unfold Rsqr in E. rewrite Rplus_comm, E. apply sqrt_1. }
  set (v := (val (flit F (fst (fst e)) (snd (fst e))), val (flit F (fst (snd e)) (snd (snd e)))) : Cx).
  assert (tp := tiny_pos). assert (T1 : tiny <= / 1000000000000000000000). { unfold tiny. apply Rinv_le_contravar; [lra|]. apply Rle_trans with (10 ^ 21); [simpl; lra|apply Rle_pow; [lra|lia]]. }
  assert (BW : Cm W <= 1001 / 1000) by (pose proof (Cm_le_add W c); lra). pose proof (Cm_fst W) as W1. pose proof (Cm_snd W) as W2.
  assert (D : Cm (Csub v W) <= 31 / 10 * ulp * Cm W + Cm (tiny, tiny)).
  { assert (Sq : forall t, t * t = Rabs t * Rabs t) by (intros t; rewrite <- Rabs_mult, Rabs_right; [reflexivity|apply Rle_ge, Rle_0_sqr]).
    set (u := 31 / 10 * ulp) in *. assert (U : 0 <= u) by (unfold u, ulp; lra).
    replace (u * Cm W) with (Cm (u * Rabs (fst W), u * Rabs (snd W))).
    - eapply Rle_trans; [|apply Cm_tri]. apply Cm_le; [apply Cm_pos|]. rewrite Cm_sq. unfold mod2, Cadd. cbn [fst snd]. rewrite (Sq (fst (Csub v W))), (Sq (snd (Csub v W))).
      apply Rplus_le_compat; apply Rmult_le_compat; try apply Rabs_pos; [exact E1|exact E1|exact E2|exact E2].
    - unfold Cm. replace (mod2 (u * Rabs (fst W), u * Rabs (snd W))) with (Rsqr u * mod2 W) by (unfold mod2, Rsqr; cbn [fst snd]; rewrite (Sq (fst W)), (Sq (snd W)); ring). rewrite sqrt_mult, sqrt_Rsqr; [reflexivity|exact U|apply Rle_0_sqr|apply mod2_pos]. }
  assert (D2 : Cm (tiny, tiny) <= tiny + tiny) by (apply Cm_two; cbn [fst snd]; rewrite Rabs_right; lra).
  assert (D3 : Cm (Csub v c) <= Cm (Csub v W) + Cm (Csub W c)). { eapply Rle_trans; [|apply Cm_tri]. right. f_equal. unfold Csub, Cadd. cbn [fst snd]. f_equal; ring. }
  pose proof (Cm_pos W) as PW. assert (D4 : 31 / 10 * ulp * Cm W <= 31 / 10 * ulp * (1001 / 1000)) by (apply Rmult_le_compat_l; [unfold ulp|]; lra). eapply Rle_trans; [exact D3|].
  unfold ulp in *. lra.
Qed.
End S.

(** exact arithmetic is accurate *)
Lemma accurate_exact : accurate RF (fun _ => True) (fun x => x).
Proof.
  assert (U : 0 <= ulp) by (unfold ulp; lra). assert (T := tiny_pos).
  assert (Z0 : forall x y k, 0 <= k -> Rabs (x - y) <= k \/ x <> y) by (intros x y k Hk; destruct (Req_dec x y) as [->|H]; [left; rewrite Rminus_eq_0, Rabs_R0; exact Hk|right; exact H]).
  assert (Zz : forall x k, 0 <= k -> Rabs (x - x) <= k) by (intros x k Hk; rewrite Rminus_eq_0, Rabs_R0; exact Hk).
  assert (Cs : forall x : Cx, Cmod (Csub x x) = 0) by (intros x; change (Cm (Csub x x) = 0); rewrite <- Cm_zero; f_equal; unfold Csub, Czero; f_equal; ring).
  split; try (intros; split; [exact I|]).
  - reflexivity.
  - apply Zz. apply Rmult_le_pos; [exact U|apply Rabs_pos].
  - reflexivity.
  - apply Zz. apply Rmult_le_pos; [exact U|apply Rabs_pos].
  - apply Zz. apply Rmult_le_pos; [exact U|apply Rabs_pos].
  - apply Zz. apply Rplus_le_le_0_compat; [apply Rmult_le_pos; [exact U|apply Rabs_pos]|lra].
  - apply Zz. apply Rplus_le_le_0_compat; [apply Rmult_le_pos; [exact U|apply Rabs_pos]|lra].
  - reflexivity.
  - reflexivity.
  - intros x y _ _. cbn. destruct (Rle_dec x y); split; intros; try discriminate; try reflexivity; tauto.
  - split; [exact I|]. assert (E := Cs (Cmul X Y)). change (Cmod (Csub (Cmul X Y) (Cmul X Y)) <= 3 * ulp * (Cmod X * Cmod Y) + tiny). rewrite E. apply Rplus_le_le_0_compat; [|lra]. apply Rmult_le_pos; [lra|apply Rmult_le_pos; apply Cm_pos].
  - split; [exact I|]. assert (E : Cmul z Y = X).
    { assert (N : mod2 Y <> 0). { intros E. assert (HY : Cmod Y = 0) by (unfold Cmod; rewrite E; apply sqrt_0). match goal with HB : / 10 ^ 50 <= Cmod Y <= _ |- _ => rewrite HY in HB end. assert (0 < / 10 ^ 50) by (apply Rinv_0_lt_compat, pow_lt; lra). lra. }
      unfold mod2 in N. change z with ((fst x * fst y + snd x * snd y) / (fst y * fst y + snd y * snd y), (snd x * fst y - fst x * snd y) / (fst y * fst y + snd y * snd y)). unfold Cmul, X, Y in *. cbn [fst snd] in *. f_equal; field; exact N. }
    change (Cmod (Csub (Cmul z Y) X) <= 8 * ulp * Cmod X + tiny). rewrite E, Cs. apply Rplus_le_le_0_compat; [|lra]. apply Rmult_le_pos; [lra|apply Cm_pos].
  - apply Zz. apply Rplus_le_le_0_compat; [apply Rmult_le_pos; [exact U|apply sqrt_pos]|lra].
  - reflexivity.
  - intros x y t _ _ _ Hg. assert (Q : Rmax x y <= t) by (change ((if Rlt_dec t (Rmax x y) then true else false) = false) in Hg; destruct (Rlt_dec t (Rmax x y)); [discriminate|lra]). split; [|intros _]; (eapply Rle_trans; [|exact Q]); [apply Rmax_l|apply Rmax_r].
Qed.
