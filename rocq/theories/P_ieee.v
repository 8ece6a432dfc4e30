(** P_ieee.v -- IEEE 754 binary64 (F64) satisfies the standard model of floating point arithmetic, via Flocq. *)
From Coq Require Import SpecFloat.
From Flocq Require Import Core Relative Plus_error BinarySingleNaN.
From Verif Require Import Base SpecR SpecF M_float M_exact M_ieee P_l2.
From Coq Require Import Lra Psatz.
Open Scope R_scope.

Local Instance Hprec : Prec_gt_0 53. Proof. reflexivity. Qed.
Local Instance Hmax : Prec_lt_emax 53 1024. Proof. reflexivity. Qed.
Notation bf64 := (binary_float 53 1024).
Notation fexp64 := (FLT_exp (-1074) 53).
Notation rnd := (round radix2 fexp64 ZnearestE).

(** ** the operations of SpecFloat and those of Flocq *)
Lemma rne_equiv s m l : round_nearest_even m l = choice_mode mode_NE s m l.
Proof. case l; [reflexivity|intro c]. case c; [|reflexivity..]. now simpl; unfold Round.cond_incr; case Z.even. Qed.
Lemma bra_equiv sx mx ex lx : SpecFloat.binary_round_aux 53 1024 sx mx ex lx = binary_round_aux 53 1024 mode_NE sx mx ex lx.
Proof.
  unfold SpecFloat.binary_round_aux, binary_round_aux. set (mrse' := shr_fexp _ _ _). case mrse'; intros mrs' e'; simpl. now rewrite (rne_equiv sx).
Qed.
Lemma br_equiv s m e : SpecFloat.binary_round 53 1024 s m e = binary_round 53 1024 mode_NE s m e.
Proof. unfold SpecFloat.binary_round, binary_round, shl_align_fexp. set (mez := shl_align _ _ _); case mez as [mz ez]. apply bra_equiv. Qed.
Lemma bn_equiv m e sz : SpecFloat.binary_normalize 53 1024 m e sz = B2SF (binary_normalize 53 1024 Hprec Hmax mode_NE m e sz).
Proof.
  case m as [|p|p]; [now simpl| |]; simpl; rewrite B2SF_SF2B; apply br_equiv.
Qed.
Lemma add_equiv (x y : bf64) : sf_add (B2SF x) (B2SF y) = B2SF (Bplus mode_NE x y).
Proof.
  case x as [sx|sx| |sx mx ex Bx]; case y as [sy|sy| |sy my ey By]; [now (trivial || simpl; case Bool.eqb)..|]. apply bn_equiv.
Qed.
Lemma sub_equiv (x y : bf64) : sf_sub (B2SF x) (B2SF y) = B2SF (Bminus mode_NE x y).
Proof.
  case x as [sx|sx| |sx mx ex Bx]; case y as [sy|sy| |sy my ey By]; [now (trivial || simpl; case Bool.eqb)..|].
  simpl. unfold Zminus. rewrite <- cond_Zopp_negb. apply bn_equiv.
Qed.
Lemma mul_equiv (x y : bf64) : sf_mul (B2SF x) (B2SF y) = B2SF (Bmult mode_NE x y).
Proof.
  case x as [sx|sx| |sx mx ex Bx]; case y as [sy|sy| |sy my ey By]; [now trivial..|]. simpl. rewrite B2SF_SF2B. apply bra_equiv.
Qed.
Lemma div_equiv (x y : bf64) : sf_div (B2SF x) (B2SF y) = B2SF (Bdiv mode_NE x y).
Proof.
  case x as [sx|sx| |sx mx ex Bx]; case y as [sy|sy| |sy my ey By]; [now (trivial || simpl; case Bool.eqb)..|].
  simpl. rewrite B2SF_SF2B. set (melz := SFdiv_core_binary _ _ _ _ _ _). case melz as [[mz ez] lz]. apply bra_equiv.
Qed.

(** ** finite doubles and their values *)
Lemma val64_SF x : val64 x = SF2R radix2 x.
Proof.
  destruct x as [s|s| |s m e]; try reflexivity. unfold val64, SF2R, F2R. cbn [Fnum Fexp]. rewrite bpow_powerRZ. change (IZR (radix_val radix2)) with 2.
  destruct s; cbn [cond_Zopp]; [change (Z.opp (Z.pos m)) with (Z.neg m); replace (IZR (Z.neg m)) with (- IZR (Z.pos m)) by (rewrite <- opp_IZR; reflexivity)|]; ring.
Qed.
Lemma fin64_SF x : fin64 x <-> valid_binary 53 1024 x = true /\ is_finite_SF x = true.
Proof. unfold fin64. destruct x; cbn [is_finite_SF]; intuition congruence. Qed.
Lemma lift x : fin64 x -> exists b : bf64, B2SF b = x /\ is_finite b = true /\ B2R b = val64 x.
Proof. intros H0. apply fin64_SF in H0. destruct H0 as [V H]. exists (SF2B x V). split; [apply B2SF_SF2B|]. split; [rewrite is_finite_SF2B; exact H|rewrite val64_SF; apply B2R_SF2B]. Qed.
Lemma fin_of (b : bf64) : is_finite b = true -> fin64 (B2SF b).
Proof. intros H. apply fin64_SF. split; [apply valid_binary_B2SF|rewrite is_finite_SF_B2SF; exact H]. Qed.
Lemma val_of (b : bf64) : val64 (B2SF b) = B2R b.
Proof. rewrite val64_SF. apply SF2R_B2SF. Qed.
Lemma format_B2R (b : bf64) : generic_format radix2 fexp64 (B2R b).
Proof. apply (generic_format_B2R 53 1024). Qed.

(** ** rounding *)
Definition et : R := / 10 ^ 300.
Lemma bpow_half : / 2 * bpow radix2 (- (53) + 1) = ulp.
Proof. unfold ulp. simpl. lra. Qed.
Lemma bpow_emin : / 2 * bpow radix2 (-1074) <= et.
Proof.
  unfold et. apply Rle_trans with (/ 2 * / 10 ^ 300).
  - apply Rmult_le_compat_l; [lra|]. change (-1074)%Z with (- (1074))%Z. rewrite bpow_opp. apply Rinv_le; [apply pow_lt; lra|]. rewrite pow_IZR, <- IZR_Zpower by discriminate. apply IZR_le. vm_compute. discriminate.
  - assert (0 < / 10 ^ 300) by (apply Rinv_0_lt_compat, pow_lt; lra). lra.
Qed.
Lemma rnd_err x : Rabs (rnd x - x) <= ulp * Rabs x + et.
Proof.
  destruct (error_N_FLT radix2 (-1074) 53 eq_refl (fun z => negb (Z.even z)) x) as [eps [eta [H1 [H2 [_ H3]]]]]. rewrite H3.
  replace (x * (1 + eps) + eta - x) with (x * eps + eta) by ring. rewrite bpow_half in H1. eapply Rle_trans; [apply Rabs_triang|]. rewrite Rabs_mult.
  pose proof bpow_emin. pose proof (Rabs_pos x). nra.
Qed.
Lemma rnd_err1 x : 1 <= Rabs x -> Rabs (rnd x - x) <= ulp * Rabs x.
Proof.
  intros H. rewrite <- bpow_half. apply relative_error_N_FLT; [reflexivity|]. eapply Rle_trans; [|exact H]. change 1 with (bpow radix2 0). apply bpow_le. discriminate.
Qed.
Lemma rnd_plus x y : generic_format radix2 fexp64 x -> generic_format radix2 fexp64 y -> Rabs (rnd (x + y) - (x + y)) <= ulp * Rabs (x + y).
Proof.
  intros Hx Hy. destruct (FLT_plus_error_N_ex radix2 (-1074) 53 (fun z => negb (Z.even z)) x y Hx Hy) as [eps [H1 H2]]. rewrite H2.
  replace ((x + y) * (1 + eps) - (x + y)) with (eps * (x + y)) by ring. rewrite Rabs_mult. apply Rmult_le_compat_r; [apply Rabs_pos|].
  eapply Rle_trans; [exact H1|]. unfold u_ro. rewrite bpow_half. assert (0 < ulp) by (unfold ulp; lra). apply (Rmult_le_reg_r (1 + ulp)); [lra|]. unfold Rdiv. rewrite Rmult_assoc, Rinv_l by lra. nra.
Qed.
Lemma no_over x : Rabs x <= 10 ^ 250 -> Rlt_bool (Rabs (rnd x)) (bpow radix2 1024) = true.
Proof.
  intros H. apply Rlt_bool_true. assert (E := rnd_err x). assert (G : Rabs (rnd x) <= 2 * 10 ^ 250 + 2).
  { replace (rnd x) with ((rnd x - x) + x) by ring. eapply Rle_trans; [apply Rabs_triang|]. assert (ulp <= 1 / 2) by (unfold ulp; lra). assert (et <= 1). { unfold et. rewrite <- Rinv_1. apply Rinv_le; [lra|apply pow_R1_Rle; lra]. } pose proof (Rabs_pos x). nra. }
  eapply Rle_lt_trans; [exact G|]. assert (P : 1 <= 10 ^ 250) by (apply pow_R1_Rle; lra). apply Rle_lt_trans with (4 * 10 ^ 250); [lra|]. rewrite pow_IZR, <- IZR_Zpower by discriminate. rewrite <- mult_IZR. apply IZR_lt. vm_compute. reflexivity.
Qed.

Lemma add64 x y : fin64 x -> fin64 y -> Rabs (val64 x + val64 y) <= 10 ^ 250 ->
  fin64 (sf_add x y) /\ Rabs (val64 (sf_add x y) - (val64 x + val64 y)) <= ulp * Rabs (val64 x + val64 y).
Proof.
  intros Hx Hy B. destruct (lift x Hx) as [bx [<- [Fx Vx]]]. destruct (lift y Hy) as [by_ [<- [Fy Vy]]]. rewrite add_equiv, !val_of in *.
  assert (C := Bplus_correct 53 1024 Hprec Hmax mode_NE bx by_ Fx Fy). rewrite no_over in C by exact B. destruct C as [C1 [C2 _]].
  split; [apply fin_of, C2|]. rewrite C1. apply rnd_plus; apply format_B2R.
Qed.
Lemma sub64 x y : fin64 x -> fin64 y -> Rabs (val64 x - val64 y) <= 10 ^ 250 ->
  fin64 (sf_sub x y) /\ Rabs (val64 (sf_sub x y) - (val64 x - val64 y)) <= ulp * Rabs (val64 x - val64 y).
Proof.
  intros Hx Hy B. destruct (lift x Hx) as [bx [<- [Fx Vx]]]. destruct (lift y Hy) as [by_ [<- [Fy Vy]]]. rewrite sub_equiv, !val_of in *.
  assert (C := Bminus_correct 53 1024 Hprec Hmax mode_NE bx by_ Fx Fy). rewrite no_over in C by exact B. destruct C as [C1 [C2 _]].
  split; [apply fin_of, C2|]. rewrite C1. apply rnd_plus; [apply format_B2R|apply generic_format_opp, format_B2R].
Qed.
Lemma mul64 x y : fin64 x -> fin64 y -> Rabs (val64 x * val64 y) <= 10 ^ 250 ->
  fin64 (sf_mul x y) /\ Rabs (val64 (sf_mul x y) - val64 x * val64 y) <= ulp * Rabs (val64 x * val64 y) + et.
Proof.
  intros Hx Hy B. destruct (lift x Hx) as [bx [<- [Fx Vx]]]. destruct (lift y Hy) as [by_ [<- [Fy Vy]]]. rewrite mul_equiv, !val_of in *.
  assert (C := Bmult_correct 53 1024 Hprec Hmax mode_NE bx by_). rewrite no_over in C by exact B. destruct C as [C1 [C2 _]].
  split; [apply fin_of; rewrite C2, Fx, Fy; reflexivity|]. rewrite C1. apply rnd_err.
Qed.
Lemma div64 x y : fin64 x -> fin64 y -> val64 y <> 0 -> Rabs (val64 x / val64 y) <= 10 ^ 250 ->
  fin64 (sf_div x y) /\ Rabs (val64 (sf_div x y) - val64 x / val64 y) <= ulp * Rabs (val64 x / val64 y) + et.
Proof.
  intros Hx Hy N B. destruct (lift x Hx) as [bx [<- [Fx Vx]]]. destruct (lift y Hy) as [by_ [<- [Fy Vy]]]. rewrite div_equiv, !val_of in *.
  assert (C := Bdiv_correct 53 1024 Hprec Hmax mode_NE bx by_ N). rewrite no_over in C by exact B. destruct C as [C1 [C2 _]].
  split; [apply fin_of; rewrite C2; exact Fx|]. rewrite C1. apply rnd_err.
Qed.
Lemma ofz64 z : Rabs (IZR z) <= 10 ^ 250 -> fin64 (sf_ofz z) /\ val64 (sf_ofz z) = rnd (IZR z).
Proof.
  intros B. unfold sf_ofz. rewrite bn_equiv, val_of. assert (C := binary_normalize_correct 53 1024 Hprec Hmax mode_NE z 0 false). cbv zeta in C.
  replace (F2R (Float radix2 z 0)) with (IZR z) in C by (unfold F2R; simpl; ring). rewrite no_over in C by exact B. destruct C as [C1 [C2 _]]. split; [apply fin_of, C2|exact C1].
Qed.
Lemma int_format z : (Z.abs z <= 2 ^ 53)%Z -> generic_format radix2 fexp64 (IZR z).
Proof.
  intros H. destruct (Z.eq_dec (Z.abs z) (2 ^ 53)) as [E|E].
  - assert (G : generic_format radix2 fexp64 (bpow radix2 53)) by (apply generic_format_bpow; discriminate).
    destruct (Z.abs_spec z) as [[_ E1]|[_ E1]]; rewrite E in E1.
    + replace (IZR z) with (bpow radix2 53); [exact G|]. rewrite <- E1. reflexivity.
    + replace (IZR z) with (- bpow radix2 53); [apply generic_format_opp, G|]. replace z with (- 2 ^ 53)%Z by lia. rewrite opp_IZR. reflexivity.
  - apply generic_format_FLT. apply (FLT_spec radix2 (-1074) 53 (IZR z) (Float radix2 z 0)); [unfold F2R; simpl; ring|simpl; change (Z.pow_pos 2 53) with (2 ^ 53)%Z; lia|discriminate].
Qed.
Lemma int64_ok z : (Z.abs z <= 2 ^ 53)%Z -> fin64 (sf_ofz z) /\ val64 (sf_ofz z) = IZR z.
Proof.
  intros H. destruct (ofz64 z) as [H1 H2].
  - rewrite <- abs_IZR. apply Rle_trans with (IZR (2 ^ 53)); [apply IZR_le, H|]. rewrite pow_IZR. apply IZR_le. vm_compute. discriminate.
  - split; [exact H1|]. rewrite H2. apply round_generic; [typeclasses eauto|apply int_format, H].
Qed.

(** ** truncation, rounding, comparison, negation *)
Lemma floor_is x z : IZR z <= x < IZR z + 1 -> Rfloor x = z.
Proof. intros [H1 H2]. unfold Rfloor, Int_part. replace (up x) with (z + 1)%Z; [lia|]. apply tech_up; rewrite plus_IZR; lra. Qed.
Lemma floor_div a b : (0 < b)%Z -> Rfloor (IZR a / IZR b) = (a / b)%Z.
Proof.
  intros Hb. apply floor_is. assert (P : 0 < IZR b) by (apply IZR_lt, Hb). pose proof (Z.mul_div_le a b Hb) as H1. pose proof (Z.mul_succ_div_gt a b Hb) as H2.
  apply IZR_le in H1. apply IZR_lt in H2. rewrite mult_IZR in H1, H2. rewrite succ_IZR in H2.
  split; [apply (Rmult_le_reg_r (IZR b)); [exact P|]|apply (Rmult_lt_reg_r (IZR b)); [exact P|]]; unfold Rdiv; rewrite (Rmult_assoc _ (/ IZR b)), Rinv_l, Rmult_1_r by lra; lra.
Qed.
Lemma floor_int z : Rfloor (IZR z) = z.
Proof. apply floor_is. lra. Qed.
Lemma val_neg m e : (e < 0)%Z -> forall s, val64 (S754_finite s m e) = (if s then -1 else 1) * (IZR (Z.pos m) / IZR (2 ^ (- e))).
Proof.
  intros He s. rewrite val64_SF. unfold SF2R, F2R. cbn [Fnum Fexp]. replace e with (- (- e))%Z at 1 by lia. rewrite bpow_opp, <- IZR_Zpower by lia. change (radix_val radix2) with 2%Z. destruct s; cbn [cond_Zopp]; [change (Z.opp (Z.pos m)) with (Z.neg m); replace (IZR (Z.neg m)) with (- IZR (Z.pos m)) by (rewrite <- opp_IZR; reflexivity)|]; unfold Rdiv; ring.
Qed.
Lemma val_pos m e : (0 <= e)%Z -> forall s, val64 (S754_finite s m e) = (if s then -1 else 1) * IZR (Z.pos m * 2 ^ e).
Proof.
  intros He s. rewrite val64_SF. unfold SF2R, F2R. cbn [Fnum Fexp]. rewrite <- IZR_Zpower by lia. change (radix_val radix2) with 2%Z. rewrite mult_IZR. destruct s; cbn [cond_Zopp]; [change (Z.opp (Z.pos m)) with (Z.neg m); replace (IZR (Z.neg m)) with (- IZR (Z.pos m)) by (rewrite <- opp_IZR; reflexivity)|]; ring.
Qed.
Lemma trunc_sgn (s : bool) x z : 0 <= x -> Rfloor x = z -> Rtrunc ((if s then -1 else 1) * x) = (if s : bool then (- z)%Z else z).
Proof.
  intros H E. unfold Rtrunc. destruct s.
  - destruct (Rle_dec 0 (-1 * x)) as [H1|H1].
    + assert (x = 0) by lra. subst x. assert (Ez : z = 0%Z) by (rewrite <- E; apply floor_int). replace (-1 * 0) with 0 by ring. rewrite E, Ez. reflexivity.
    + replace (- (-1 * x)) with x by ring. rewrite E. reflexivity.
  - destruct (Rle_dec 0 (1 * x)) as [H1|H1]; [rewrite Rmult_1_l; exact E|lra].
Qed.
Lemma round_sgn (s : bool) x z : 0 <= x -> Rfloor (x + / 2) = z -> Rround ((if s then -1 else 1) * x) = (if s : bool then (- z)%Z else z).
Proof.
  intros H E. unfold Rround. destruct s.
  - destruct (Rle_dec 0 (-1 * x)) as [H1|H1].
    + assert (x = 0) by lra. subst x. assert (Ez : z = 0%Z) by (rewrite <- E; apply floor_is; lra). replace (-1 * 0 + / 2) with (0 + / 2) by ring. rewrite E, Ez. reflexivity.
    + replace (- (-1 * x)) with x by ring. rewrite E. reflexivity.
  - destruct (Rle_dec 0 (1 * x)) as [H1|H1]; [rewrite Rmult_1_l; exact E|lra].
Qed.
Lemma pos_div m e : (e < 0)%Z -> 0 <= IZR (Z.pos m) / IZR (2 ^ (- e)).
Proof. intros He. apply Rmult_le_pos; [apply IZR_le; discriminate|left; apply Rinv_0_lt_compat, IZR_lt, Z.pow_pos_nonneg; lia]. Qed.
Lemma trunc64 x : fin64 x -> sf_trunc x = Some (Rtrunc (val64 x)).
Proof.
  intros [V H]. destruct x as [s|s| |s m e]; try destruct H.
  - cbn. f_equal. replace 0 with (1 * IZR 0) by (simpl; ring). symmetry. apply (trunc_sgn false); [apply Rle_refl|apply floor_int].
  - unfold sf_trunc. f_equal. destruct (Z.geb_spec e 0) as [He|He].
    + rewrite val_pos by lia. symmetry. apply trunc_sgn; [apply IZR_le; assert (0 < 2 ^ e)%Z by (apply Z.pow_pos_nonneg; lia); lia|apply floor_int].
    + rewrite val_neg by lia. symmetry. apply trunc_sgn; [apply pos_div, He|]. apply floor_div. apply Z.pow_pos_nonneg; lia.
Qed.
Lemma round64 x : fin64 x -> Rabs (val64 x) <= 2147483648 -> fin64 (sf_round x) /\ val64 (sf_round x) = IZR (Rround (val64 x)).
Proof.
  intros Hf B. assert (Hf' := Hf). destruct Hf as [V H]. destruct x as [s|s| |s m e]; try destruct H.
  - cbn [sf_round]. split; [split; [reflexivity|exact I]|]. cbn. f_equal. replace 0 with (1 * IZR 0) by (simpl; ring). symmetry. apply (round_sgn false); [apply Rle_refl|apply floor_is; lra].
  - unfold sf_round. destruct (Z.geb_spec e 0) as [He|He].
    + split; [exact Hf'|]. rewrite val_pos by lia. rewrite (round_sgn s _ (Z.pos m * 2 ^ e)%Z); [|apply IZR_le; assert (0 < 2 ^ e)%Z by (apply Z.pow_pos_nonneg; lia); lia|apply floor_is; lra].
      destruct s; [rewrite opp_IZR|]; ring.
    + rewrite val_neg in * by lia. assert (P : (0 < 2 ^ (- e))%Z) by (apply Z.pow_pos_nonneg; lia). assert (PR : 0 < IZR (2 ^ (- e))) by (apply IZR_lt, P). assert (Q := pos_div m e He).
      rewrite (round_sgn s _ ((2 * Z.pos m + 2 ^ (- e)) / 2 ^ (- e + 1))%Z).
      2:{ exact Q. }
      2:{ rewrite <- floor_div by (apply Z.pow_pos_nonneg; lia). f_equal. rewrite Z.pow_add_r by lia. rewrite mult_IZR, plus_IZR, mult_IZR. change (IZR (2 ^ 1)) with 2. field. lra. }
      set (v := ((2 * Z.pos m + 2 ^ (- e)) / 2 ^ (- e + 1))%Z).
      assert (Bv : (0 <= v <= 2147483649)%Z).
      { assert (E1 : Rabs ((if s then -1 else 1) * (IZR (Z.pos m) / IZR (2 ^ - e))) = IZR (Z.pos m) / IZR (2 ^ - e)) by (rewrite Rabs_mult, (Rabs_right (_ / _)) by lra; destruct s; [rewrite Rabs_left by lra|rewrite Rabs_right by lra]; ring).
        rewrite E1 in B. assert (B2 : (Z.pos m <= 2147483648 * 2 ^ (- e))%Z). { apply le_IZR. rewrite mult_IZR. apply (Rmult_le_reg_r (/ IZR (2 ^ (- e)))); [apply Rinv_0_lt_compat, PR|]. rewrite Rmult_assoc, Rinv_r by lra. unfold Rdiv in B. lra. }
        unfold v. rewrite Z.pow_add_r by lia. change (2 ^ 1)%Z with 2%Z. split; [apply Z.div_pos; lia|]. apply Z.div_le_upper_bound; lia. }
      destruct (int64_ok (if s then - v else v)%Z) as [I1 I2]; [change (2 ^ 53)%Z with 9007199254740992%Z; destruct s; lia|]. split; [exact I1|]. rewrite I2. reflexivity.
Qed.
Lemma le64 x y : fin64 x -> fin64 y -> (SFleb x y = true <-> val64 x <= val64 y).
Proof.
  intros Hx Hy. destruct (lift x Hx) as [bx [<- [Fx Vx]]]. destruct (lift y Hy) as [by_ [<- [Fy Vy]]]. rewrite !val_of. change (SFleb (B2SF bx) (B2SF by_)) with (Bleb bx by_). rewrite Bleb_correct by assumption.
  destruct (Rle_bool_spec (B2R bx) (B2R by_)); split; intros; try discriminate; try reflexivity; lra.
Qed.
Lemma lt64 x y : fin64 x -> fin64 y -> (SFltb x y = true <-> val64 x < val64 y).
Proof.
  intros Hx Hy. destruct (lift x Hx) as [bx [<- [Fx Vx]]]. destruct (lift y Hy) as [by_ [<- [Fy Vy]]]. rewrite !val_of. change (SFltb (B2SF bx) (B2SF by_)) with (Bltb bx by_). rewrite Bltb_correct by assumption.
  destruct (Rlt_bool_spec (B2R bx) (B2R by_)); split; intros; try discriminate; try reflexivity; lra.
Qed.
Lemma floor64 x : fin64 x -> fin64 (sf_floor x) /\ val64 (sf_floor x) = IZR (Rfloor (val64 x)).
Proof.
  intros Hf. assert (Hf' := Hf). destruct Hf as [V H]. destruct x as [s|s| |s m e]; try destruct H.
  - cbn [sf_floor]. split; [split; [reflexivity|exact I]|]. cbn. rewrite floor_int. reflexivity.
  - unfold sf_floor. destruct (Z.geb_spec e 0) as [He|He].
    + split; [exact Hf'|]. rewrite val_pos by lia. assert (E : (if s then -1 else 1) * IZR (Z.pos m * 2 ^ e) = IZR ((if s then -1 else 1) * (Z.pos m * 2 ^ e))) by (rewrite (mult_IZR (if s then (-1)%Z else 1%Z)); destruct s; reflexivity).
      rewrite E, floor_int. reflexivity.
    + assert (P : (0 < 2 ^ (- e))%Z) by (apply Z.pow_pos_nonneg; lia). rewrite val_neg by lia.
      assert (Bm : (Z.pos m < 2 ^ 53)%Z).
      { destruct (lift _ Hf') as [b [Eb _]]. destruct b as [|[]| |s' m' e' Hb]; try discriminate. cbn in Eb. injection Eb as -> -> ->. apply andb_prop in Hb. destruct Hb as [Hb _].
        apply Zeq_bool_eq in Hb. unfold SpecFloat.fexp in Hb. apply (Zpower_gt_Zdigits radix2 53 (Z.pos m)). rewrite <- Digits.Zpos_digits2_pos. lia. }
      assert (E : (if s then -1 else 1) * (IZR (Z.pos m) / IZR (2 ^ - e)) = IZR (if s then Z.neg m else Z.pos m) / IZR (2 ^ - e)) by (destruct s; [change (Z.neg m) with (- Z.pos m)%Z; rewrite opp_IZR|]; unfold Rdiv; ring).
      rewrite E, floor_div by exact P. apply int64_ok. change (2 ^ 53)%Z with 9007199254740992%Z in *.
      assert (1 <= 2 ^ (- e))%Z by lia. set (w := (2 ^ - e)%Z) in *. destruct s.
      * assert (- 9007199254740992 <= Z.neg m / w)%Z by (apply Z.div_le_lower_bound; nia). assert (Z.neg m / w <= 0)%Z by (apply Z.div_le_upper_bound; lia). lia.
      * assert (0 <= Z.pos m / w)%Z by (apply Z.div_pos; lia). assert (Z.pos m / w <= Z.pos m)%Z by (apply Z.div_le_upper_bound; nia). lia.
Qed.
Lemma sqrt_equiv (x : bf64) : SFsqrt 53 1024 (B2SF x) = B2SF (Bsqrt mode_NE x).
Proof.
  case x as [sx|sx| |sx mx ex Bx]; [reflexivity|destruct sx; reflexivity|reflexivity|]. destruct sx; [reflexivity|]. simpl. rewrite B2SF_SF2B. set (melz := SFsqrt_core_binary _ _ _ _). case melz as [[mz ez] lz]. apply bra_equiv.
Qed.
Lemma sqrt64 x : fin64 x -> 0 <= val64 x -> fin64 (SFsqrt 53 1024 x) /\ Rabs (val64 (SFsqrt 53 1024 x) - sqrt (val64 x)) <= ulp * sqrt (val64 x) + et.
Proof.
  intros Hx P. destruct (lift x Hx) as [bx [<- [Fx Vx]]]. rewrite sqrt_equiv, !val_of in *. destruct (Bsqrt_correct 53 1024 Hprec Hmax mode_NE bx) as [C1 [C2 _]].
  split.
  - apply fin_of. rewrite C2. destruct bx as [sx|sx| |sx mx ex Bx]; try discriminate; [reflexivity|]. destruct sx; [|reflexivity]. exfalso. clear - P. cbn [B2R] in P. 
    assert (F2R (Float radix2 (cond_Zopp true (Z.pos mx)) ex) < 0) by (apply F2R_lt_0; reflexivity). lra.
  - rewrite C1. rewrite <- (Rabs_pos_eq (sqrt (B2R bx))) at 3 by apply sqrt_pos. apply rnd_err.
Qed.
Definition good (x : spec_float) : Prop := valid_binary 53 1024 x = true.
Lemma good_lift x : good x -> exists b : bf64, B2SF b = x.
Proof. intros H. exists (SF2B x H). apply B2SF_SF2B. Qed.
Lemma good_of (b : bf64) : good (B2SF b). Proof. apply valid_binary_B2SF. Qed.
Lemma good_add x y : good x -> good y -> good (sf_add x y).
Proof. intros Hx Hy. destruct (good_lift x Hx) as [bx <-]. destruct (good_lift y Hy) as [b2 <-]. rewrite add_equiv. apply good_of. Qed.
Lemma good_sub x y : good x -> good y -> good (sf_sub x y).
Proof. intros Hx Hy. destruct (good_lift x Hx) as [bx <-]. destruct (good_lift y Hy) as [b2 <-]. rewrite sub_equiv. apply good_of. Qed.
Lemma good_mul x y : good x -> good y -> good (sf_mul x y).
Proof. intros Hx Hy. destruct (good_lift x Hx) as [bx <-]. destruct (good_lift y Hy) as [b2 <-]. rewrite mul_equiv. apply good_of. Qed.
Lemma good_div x y : good x -> good y -> good (sf_div x y).
Proof. intros Hx Hy. destruct (good_lift x Hx) as [bx <-]. destruct (good_lift y Hy) as [b2 <-]. rewrite div_equiv. apply good_of. Qed.
Lemma good_computed x : computed F64 fin64 x -> good x.
Proof.
  intros H. induction H as [x H|x y _ H1 _ H2|x y _ H1 _ H2|x y _ H1 _ H2|x _ H1|x y _ H1 _ H2 _ H3 _ H4|x y _ H1 _ H2 _ H3 _ H4|x y _ H1 _ H2 _ H3 _ H4|x y _ H1 _ H2 _ H3 _ H4].
  - exact (proj1 H).
  - apply good_add; assumption.
  - apply good_mul; assumption.
  - apply good_div; assumption.
  - destruct x; exact H1.
  - cbn. apply good_sub; apply good_mul; assumption.
  - cbn. apply good_add; apply good_mul; assumption.
  - cbn. apply good_div; [|apply good_add; apply good_mul; assumption]. apply good_add; apply good_mul; assumption.
  - cbn. apply good_div; [|apply good_add; apply good_mul; assumption]. apply good_sub; apply good_mul; assumption.
Qed.
Lemma maxgt64 x y t : fin64 x -> good y -> fin64 t -> SFltb t (sf_max x y) = false -> val64 x <= val64 t /\ (fin64 y -> val64 y <= val64 t).
Proof.
  intros Hx Hy Ht H. unfold sf_max in H.
  assert (L : forall a, fin64 a -> SFltb t a = false -> val64 a <= val64 t). { intros a Ha Hl. apply Rnot_lt_le. intros K. apply (lt64 t a Ht Ha) in K. congruence. }
  destruct (SFltb x y) eqn:E.
  - assert (Fy : fin64 y \/ ~ fin64 y).
    { destruct y as [s|s| |s m e]; [left; split; reflexivity|right; intros [_ []]|right; intros [_ []]|]. left. split; [exact Hy|exact I]. }
    destruct Fy as [Fy|Fy].
    + assert (K := L y Fy H). split; [|intros _; exact K]. apply (lt64 x y Hx Fy) in E. lra.
    + exfalso. destruct Hx as [_ Hx]. destruct Ht as [_ Ht]. destruct y as [s|s| |s m e].
      * apply Fy. split; [reflexivity|exact I].
      * destruct s; destruct x as [[]|[]| |[] ? ?]; try destruct Hx; try discriminate E; destruct t as [[]|[]| |[] ? ?]; try destruct Ht; discriminate H.
      * destruct x as [[]|[]| |[] ? ?]; discriminate E.
      * apply Fy. split; [exact Hy|exact I].
  - assert (K := L x Hx H). split; [exact K|]. intros Fy. assert (val64 y <= val64 x); [|lra]. apply Rnot_lt_le. intros Q. apply (lt64 x y Hx Fy) in Q. congruence.
Qed.
Lemma neg64 x : fin64 x -> fin64 (SFopp x) /\ val64 (SFopp x) = - val64 x.
Proof.
  intros Hx. destruct (lift x Hx) as [bx [<- [Fx Vx]]]. replace (SFopp (B2SF bx)) with (B2SF (Bopp bx)) by (destruct bx; reflexivity). rewrite !val_of, B2R_Bopp. split; [apply fin_of; rewrite is_finite_Bopp; exact Fx|reflexivity].
Qed.

(** ** complex products and quotients *)
Lemma et_pos : 0 < et. Proof. apply Rinv_0_lt_compat, pow_lt. lra. Qed.
Lemma et_small k : (k <= 300)%nat -> et * 10 ^ k <= 1.
Proof. intros H. unfold et. apply (Rmult_le_reg_l (10 ^ 300)); [apply pow_lt; lra|]. rewrite <- Rmult_assoc, Rinv_r, Rmult_1_l, Rmult_1_r by (apply pow_nonzero; lra). apply Rle_pow; [lra|exact H]. Qed.
Lemma p10 j k : (j <= k)%nat -> 10 ^ j <= 10 ^ k. Proof. intros H. apply Rle_pow; [lra|exact H]. Qed.
Lemma p10_pos j : 0 < 10 ^ j. Proof. apply pow_lt; lra. Qed.
Lemma sum2 a b c d m : fin64 a -> fin64 b -> fin64 c -> fin64 d -> Rabs (val64 a * val64 b) + Rabs (val64 c * val64 d) <= m -> m <= 10 ^ 240 ->
  fin64 (sf_add (sf_mul a b) (sf_mul c d)) /\ Rabs (val64 (sf_add (sf_mul a b) (sf_mul c d)) - (val64 a * val64 b + val64 c * val64 d)) <= ulp * Rabs (val64 a * val64 b + val64 c * val64 d) + 1001 / 1000 * ulp * m + 3 * et.
Proof.
  intros Ha Hb Hc Hd Hm Bm. assert (U : 0 < ulp <= / 1000000) by (unfold ulp; lra). assert (T := et_pos). assert (T1 := et_small 0 ltac:(lia)). cbn [pow] in T1.
  pose proof (Rabs_pos (val64 a * val64 b)) as P1. pose proof (Rabs_pos (val64 c * val64 d)) as P2. pose proof (p10 240 250 ltac:(lia)) as B250.
  destruct (mul64 a b Ha Hb ltac:(lra)) as [F1 E1]. destruct (mul64 c d Hc Hd ltac:(lra)) as [F2 E2].
  set (p := val64 (sf_mul a b)) in *. set (q := val64 (sf_mul c d)) in *. set (x := val64 a * val64 b) in *. set (y := val64 c * val64 d) in *.
  assert (D : Rabs (p + q - (x + y)) <= ulp * m + 2 * et). { replace (p + q - (x + y)) with ((p - x) + (q - y)) by ring. eapply Rle_trans; [apply Rabs_triang|]. nra. }
  assert (S : Rabs (p + q) <= Rabs (x + y) + (ulp * m + 2 * et)). { replace (p + q) with ((x + y) + (p + q - (x + y))) by ring. eapply Rle_trans; [apply Rabs_triang|]. lra. }
  assert (Sxy : Rabs (x + y) <= m) by (eapply Rle_trans; [apply Rabs_triang|]; lra).
  assert (B240 : 10 * 10 ^ 240 <= 10 ^ 250) by (change (10 * 10 ^ 240) with (10 ^ 241); apply p10; lia). pose proof (p10 0 240 ltac:(lia)) as G0. cbn [pow] in G0.
  assert (Um : ulp * m <= / 1000000 * 10 ^ 240) by (apply Rmult_le_compat; lra).
  destruct (add64 _ _ F1 F2) as [F3 E3]; [fold p q; lra|]. split; [exact F3|]. fold p q in E3. set (r := val64 (sf_add (sf_mul a b) (sf_mul c d))) in *.
  replace (r - (x + y)) with ((r - (p + q)) + (p + q - (x + y))) by ring. eapply Rle_trans; [apply Rabs_triang|].
  assert (E4 : ulp * Rabs (p + q) <= ulp * (Rabs (x + y) + (ulp * m + 2 * et))) by (apply Rmult_le_compat_l; lra).
  assert (E5 : ulp * (ulp * m) <= / 1000000 * (ulp * m)) by (apply Rmult_le_compat_r; [apply Rmult_le_pos; lra|lra]). assert (E6 : ulp * et <= / 1000000 * et) by (apply Rmult_le_compat_r; lra).
  assert (E7 : 0 <= ulp * m) by (apply Rmult_le_pos; lra). lra.
Qed.
Lemma dif2 a b c d m : fin64 a -> fin64 b -> fin64 c -> fin64 d -> Rabs (val64 a * val64 b) + Rabs (val64 c * val64 d) <= m -> m <= 10 ^ 240 ->
  fin64 (sf_sub (sf_mul a b) (sf_mul c d)) /\ Rabs (val64 (sf_sub (sf_mul a b) (sf_mul c d)) - (val64 a * val64 b - val64 c * val64 d)) <= ulp * Rabs (val64 a * val64 b - val64 c * val64 d) + 1001 / 1000 * ulp * m + 3 * et.
Proof.
  intros Ha Hb Hc Hd Hm Bm. assert (U : 0 < ulp <= / 1000000) by (unfold ulp; lra). assert (T := et_pos). assert (T1 := et_small 0 ltac:(lia)). cbn [pow] in T1.
  pose proof (Rabs_pos (val64 a * val64 b)) as P1. pose proof (Rabs_pos (val64 c * val64 d)) as P2. pose proof (p10 240 250 ltac:(lia)) as B250.
  destruct (mul64 a b Ha Hb ltac:(lra)) as [F1 E1]. destruct (mul64 c d Hc Hd ltac:(lra)) as [F2 E2].
  set (p := val64 (sf_mul a b)) in *. set (q := val64 (sf_mul c d)) in *. set (x := val64 a * val64 b) in *. set (y := val64 c * val64 d) in *.
  assert (D : Rabs (p - q - (x - y)) <= ulp * m + 2 * et). { replace (p - q - (x - y)) with ((p - x) + - (q - y)) by ring. eapply Rle_trans; [apply Rabs_triang|]. rewrite Rabs_Ropp. nra. }
  assert (S : Rabs (p - q) <= Rabs (x - y) + (ulp * m + 2 * et)). { replace (p - q) with ((x - y) + (p - q - (x - y))) by ring. eapply Rle_trans; [apply Rabs_triang|]. lra. }
  assert (Sxy : Rabs (x - y) <= m) by (unfold Rminus; eapply Rle_trans; [apply Rabs_triang|]; rewrite Rabs_Ropp; lra).
  assert (B240 : 10 * 10 ^ 240 <= 10 ^ 250) by (change (10 * 10 ^ 240) with (10 ^ 241); apply p10; lia). pose proof (p10 0 240 ltac:(lia)) as G0. cbn [pow] in G0.
  assert (Um : ulp * m <= / 1000000 * 10 ^ 240) by (apply Rmult_le_compat; lra).
  destruct (sub64 _ _ F1 F2) as [F3 E3]; [fold p q; lra|]. split; [exact F3|]. fold p q in E3. set (r := val64 (sf_sub (sf_mul a b) (sf_mul c d))) in *.
  replace (r - (x - y)) with ((r - (p - q)) + (p - q - (x - y))) by ring. eapply Rle_trans; [apply Rabs_triang|].
  assert (E4 : ulp * Rabs (p - q) <= ulp * (Rabs (x - y) + (ulp * m + 2 * et))) by (apply Rmult_le_compat_l; lra).
  assert (E5 : ulp * (ulp * m) <= / 1000000 * (ulp * m)) by (apply Rmult_le_compat_r; [apply Rmult_le_pos; lra|lra]). assert (E6 : ulp * et <= / 1000000 * et) by (apply Rmult_le_compat_r; lra).
  assert (E7 : 0 <= ulp * m) by (apply Rmult_le_pos; lra). lra.
Qed.
Lemma Cm_comp2 (e W : Cx) u k : 0 <= u -> 0 <= k -> Rabs (fst e) <= u * Rabs (fst W) + k -> Rabs (snd e) <= u * Rabs (snd W) + k -> Cm e <= u * Cm W + 3 / 2 * k.
Proof.
  intros U K G1 G2. replace (u * Cm W) with (Cm (u * Rabs (fst W), u * Rabs (snd W))).
  2:{ unfold Cm. replace (mod2 (u * Rabs (fst W), u * Rabs (snd W))) with (Rsqr u * mod2 W).
      - rewrite sqrt_mult, sqrt_Rsqr; [reflexivity|exact U|apply Rle_0_sqr|apply mod2_pos].
      - assert (Sq : forall t, t * t = Rabs t * Rabs t) by (intros t; rewrite <- Rabs_mult, Rabs_right; [reflexivity|apply Rle_ge, Rle_0_sqr]). unfold mod2, Rsqr. cbn [fst snd]. rewrite (Sq (fst W)), (Sq (snd W)). ring. }
  assert (N2 : Cm (k, k) <= 3 / 2 * k). { apply Cm_le; [lra|]. unfold mod2. cbn [fst snd]. nra. }
  eapply Rle_trans; [|apply Rplus_le_compat_l; exact N2]. eapply Rle_trans; [|apply Cm_tri]. apply Cm_le; [apply Cm_pos|]. rewrite Cm_sq. unfold mod2, Cadd. cbn [fst snd].
  assert (Sq : forall t, t * t = Rabs t * Rabs t) by (intros t; rewrite <- Rabs_mult, Rabs_right; [reflexivity|apply Rle_ge, Rle_0_sqr]). rewrite (Sq (fst e)), (Sq (snd e)).
  pose proof (Rabs_pos (fst e)). pose proof (Rabs_pos (snd e)). apply Rplus_le_compat; apply Rmult_le_compat; assumption.
Qed.
Lemma cs2 a b c d : Rabs (a * c) + Rabs (b * d) <= Cm (a, b) * Cm (c, d).
Proof.
  rewrite !Rabs_mult. apply sq_le; [apply Rmult_le_pos; apply Cm_pos|]. replace (Cm (a, b) * Cm (c, d) * (Cm (a, b) * Cm (c, d))) with ((Cm (a, b) * Cm (a, b)) * (Cm (c, d) * Cm (c, d))) by ring. rewrite !Cm_sq. unfold mod2. cbn [fst snd].
  assert (Sq : forall t, t * t = Rabs t * Rabs t) by (intros t; rewrite <- Rabs_mult, Rabs_right; [reflexivity|apply Rle_ge, Rle_0_sqr]). rewrite (Sq a), (Sq b), (Sq c), (Sq d).
  pose proof (Rle_0_sqr (Rabs a * Rabs d - Rabs b * Rabs c)) as H. unfold Rsqr in H. nra.
Qed.
Lemma cs2' a b c d : Rabs (a * d) + Rabs (b * c) <= Cm (a, b) * Cm (c, d).
Proof. replace (Cm (c, d)) with (Cm (d, c)); [apply cs2|]. unfold Cm. f_equal. unfold mod2. cbn [fst snd]. ring. Qed.
Notation v2 := (fun x : spec_float * spec_float => ((val64 (fst x), val64 (snd x)) : Cx)).
Lemma cmul64 x y : fin64 (fst x) -> fin64 (snd x) -> fin64 (fst y) -> fin64 (snd y) -> Cm (v2 x) * Cm (v2 y) <= 10 ^ 240 ->
  let z := fcmul F64 x y in fin64 (fst z) /\ fin64 (snd z) /\ Cm (Csub (v2 z) (Cmul (v2 x) (v2 y))) <= 26 / 10 * ulp * (Cm (v2 x) * Cm (v2 y)) + 5 * et.
Proof.
  intros Ha Hb Hc Hd B z. destruct x as [a b], y as [c d]. cbn [fst snd] in *. set (m := Cm (val64 a, val64 b) * Cm (val64 c, val64 d)) in *.
  destruct (dif2 a c b d m Ha Hc Hb Hd (cs2 _ _ _ _) B) as [F1 E1]. destruct (sum2 a d b c m Ha Hd Hb Hc (cs2' _ _ _ _) B) as [F2 E2].
  split; [exact F1|]. split; [exact F2|]. assert (U : 0 < ulp) by (unfold ulp; lra). assert (T := et_pos). assert (M0 : 0 <= m) by (unfold m; apply Rmult_le_pos; apply Cm_pos).
  assert (Um : 0 <= ulp * m) by (apply Rmult_le_pos; lra).
  eapply Rle_trans; [apply (Cm_comp2 _ (Cmul (val64 a, val64 b) (val64 c, val64 d)) ulp (1001 / 1000 * ulp * m + 3 * et)); [lra|lra| |]|].
  - cbn [fst snd Csub Cmul] in *. eapply Rle_trans; [exact E1|]. lra.
  - cbn [fst snd Csub Cmul] in *. eapply Rle_trans; [exact E2|]. lra.
  - rewrite Cm_mul. fold m. lra.
Qed.
Lemma cdiv64 x y : fin64 (fst x) -> fin64 (snd x) -> fin64 (fst y) -> fin64 (snd y) -> Cm (v2 x) <= 10 ^ 50 -> / 10 ^ 50 <= Cm (v2 y) <= 10 ^ 50 ->
  let z := fcdiv F64 x y in fin64 (fst z) /\ fin64 (snd z) /\ Cm (Csub (Cmul (v2 z) (v2 y)) (v2 x)) <= 8 * ulp * Cm (v2 x) + tiny.
Proof.
  intros Ha Hb Hc Hd BX [BY1 BY2] z. destruct x as [a b], y as [c d]. cbn [fst snd] in *. set (X := (val64 a, val64 b) : Cx) in *. set (Y := (val64 c, val64 d) : Cx) in *.
  assert (U : 0 < ulp <= / 1000000) by (unfold ulp; lra). assert (T := et_pos). pose proof (Cm_pos X) as PX. assert (PY : 0 < Cm Y) by (eapply Rlt_le_trans; [apply Rinv_0_lt_compat, (p10_pos 50)|exact BY1]).
  assert (P50 := p10_pos 50). assert (P100 : 10 ^ 50 * 10 ^ 50 = 10 ^ 100) by (rewrite <- pow_add; reflexivity). assert (B100 := p10 100 240 ltac:(lia)).
  assert (XY : Cm X * Cm Y <= 10 ^ 100) by (rewrite <- P100; apply Rmult_le_compat; lra).
  assert (YY : Cm Y * Cm Y <= 10 ^ 100) by (rewrite <- P100; apply Rmult_le_compat; lra).
  assert (YYlo : / 10 ^ 100 <= Cm Y * Cm Y). { rewrite <- P100, Rinv_mult. assert (0 < / 10 ^ 50) by (apply Rinv_0_lt_compat; lra). apply Rmult_le_compat; lra. }
  destruct (sum2 a c b d (Cm X * Cm Y) Ha Hc Hb Hd (cs2 _ _ _ _) ltac:(lra)) as [F1 E1].
  destruct (dif2 b c a d (Cm X * Cm Y) Hb Hc Ha Hd ltac:(rewrite Rplus_comm; apply cs2') ltac:(lra)) as [F2 E2].
  destruct (sum2 c c d d (Cm Y * Cm Y) Hc Hc Hd Hd (cs2 _ _ _ _) ltac:(lra)) as [F3 E3].
  set (n1 := sf_add (sf_mul a c) (sf_mul b d)) in *. set (n2 := sf_sub (sf_mul b c) (sf_mul a d)) in *. set (dd := sf_add (sf_mul c c) (sf_mul d d)) in *.
  set (M := Cm Y * Cm Y) in *. assert (EM : M = val64 c * val64 c + val64 d * val64 d) by (unfold M; rewrite Cm_sq; reflexivity). rewrite <- EM in E3. rewrite (Rabs_right M) in E3 by (apply Rle_ge; unfold M; apply Rmult_le_pos; lra).
  set (D := val64 dd) in *. assert (PM : 0 < M) by (unfold M; apply Rmult_lt_0_compat; lra).
  assert (Es : 3 * et <= / 1000 * ulp * M).
  { assert (S1 := et_small 200 ltac:(lia)). assert (E200 : 10 ^ 200 = 10 ^ 100 * 10 ^ 100) by (rewrite <- pow_add; reflexivity).
    assert (S2 : et * 10 ^ 100 <= / 10 ^ 100). { apply (Rmult_le_reg_r (10 ^ 100)); [apply p10_pos|]. rewrite Rinv_l by (apply pow_nonzero; lra). lra. }
    assert (S3 : et * 10 ^ 100 <= M) by lra. assert (S4 := p10 50 100 ltac:(lia)). assert (10 ^ 30 <= 10 ^ 50) by (apply p10; lia).
    assert (S5 : et * 10 ^ 30 <= et * 10 ^ 100) by (apply Rmult_le_compat_l; lra). assert (1000000000000000000000000 <= 10 ^ 30) by (cbn [pow]; lra).
    assert (S6 : et * 1000000000000000000000000 <= et * 10 ^ 30) by (apply Rmult_le_compat_l; lra). unfold ulp. lra. }
  assert (UM : 0 <= ulp * M) by (apply Rmult_le_pos; lra).
  assert (Dd : Rabs (D - M) <= 2003 / 1000 * ulp * M) by lra.
  assert (DM : M <= 1001 / 1000 * D). { assert (Rabs (D - M) <= 2003 / 1000 * (/ 1000000 * M)) by (eapply Rle_trans; [exact Dd|]; rewrite Rmult_assoc; apply Rmult_le_compat_l; [lra|]; apply Rmult_le_compat_r; lra). apply Rabs_le_inv in H. lra. }
  assert (PD : 0 < D) by lra.
  set (N := Cmul X (Cconj Y)). set (n := (val64 n1, val64 n2) : Cx).
  assert (EN : Cm N = Cm X * Cm Y) by (unfold N; rewrite Cm_mul, Cm_conj; reflexivity).
  assert (UXY : 0 <= ulp * (Cm X * Cm Y)) by (apply Rmult_le_pos; [lra|apply Rmult_le_pos; lra]).
  assert (En : Cm (Csub n N) <= 26 / 10 * ulp * (Cm X * Cm Y) + 5 * et).
  { eapply Rle_trans; [apply (Cm_comp2 _ N ulp (1001 / 1000 * ulp * (Cm X * Cm Y) + 3 * et)); [lra|lra| |]|rewrite EN; lra].
    - unfold n, N, Csub, Cmul, Cconj. cbn [fst snd]. change (fst X) with (val64 a). change (snd X) with (val64 b). change (fst Y) with (val64 c). change (snd Y) with (val64 d). replace (val64 a * val64 c - val64 b * - val64 d) with (val64 a * val64 c + val64 b * val64 d) by ring. lra.
    - unfold n, N, Csub, Cmul, Cconj. cbn [fst snd]. change (fst X) with (val64 a). change (snd X) with (val64 b). change (fst Y) with (val64 c). change (snd Y) with (val64 d). replace (val64 a * - val64 d + val64 b * val64 c) with (val64 b * val64 c - val64 a * val64 d) by ring. lra. }
  assert (T1 := et_small 100 ltac:(lia)). assert (P1 := p10_pos 100).
  assert (Bn : Cm n <= 1001 / 1000 * (Cm X * Cm Y) + 5 * et).
  { pose proof (Cm_le_add n N). assert (ulp * (Cm X * Cm Y) <= / 1000000 * (Cm X * Cm Y)) by (apply Rmult_le_compat_r; [apply Rmult_le_pos; lra|lra]). lra. }
  assert (Q : forall t, Rabs t <= Cm n -> Rabs (t / D) <= 10 ^ 250).
  { intros t Ht. unfold Rdiv. rewrite Rabs_mult, Rabs_inv, (Rabs_right D) by lra.
    assert (iD : / D <= 1001 / 1000 * 10 ^ 100). { apply (Rmult_le_reg_r D); [exact PD|]. rewrite Rinv_l by lra. assert (/ 10 ^ 100 <= 1001 / 1000 * D) by lra. apply (Rmult_le_compat_r (10 ^ 100)) in H; [|lra]. rewrite Rinv_l in H by lra. lra. }
    assert (Cn : Cm n <= 10 * 10 ^ 100). { assert (et <= 1) by (pose proof (et_small 0 ltac:(lia)) as H0; cbn [pow] in H0; lra). pose proof (p10 0 100 ltac:(lia)) as H1. cbn [pow] in H1. lra. }
    apply Rle_trans with (10 * 10 ^ 100 * (1001 / 1000 * 10 ^ 100)).
    - apply Rmult_le_compat; [apply Rabs_pos|left; apply Rinv_0_lt_compat; exact PD|lra|exact iD].
    - assert (E202 : 10 ^ 250 = 10 ^ 100 * 10 ^ 100 * 10 ^ 50) by (rewrite <- !pow_add; reflexivity). rewrite E202. assert (0 < 10 ^ 100 * 10 ^ 100) by (apply Rmult_lt_0_compat; lra). assert (100 <= 10 ^ 50) by (apply Rle_trans with (10 ^ 2); [simpl; lra|apply p10; lia]).
      replace (10 * 10 ^ 100 * (1001 / 1000 * 10 ^ 100)) with ((10 ^ 100 * 10 ^ 100) * (1001 / 100)) by field. apply Rmult_le_compat_l; lra. }
  destruct (div64 n1 dd F1 F3 ltac:(fold D; lra) (Q _ (Cm_fst n))) as [G1 H1]. destruct (div64 n2 dd F2 F3 ltac:(fold D; lra) (Q _ (Cm_snd n))) as [G2 H2].
  fold D in H1, H2. split; [exact G1|]. split; [exact G2|]. change (v2 z) with ((val64 (sf_div n1 dd), val64 (sf_div n2 dd)) : Cx). set (Zv := (val64 (sf_div n1 dd), val64 (sf_div n2 dd)) : Cx).
  set (W := (fst n / D, snd n / D) : Cx).
  assert (EW : Cm W = Cm n / D).
  { replace W with (Cmul (/ D, 0) n) by (unfold W, Cmul; cbn [fst snd]; f_equal; field; lra). rewrite Cm_mul. replace (Cm (/ D, 0)) with (/ D); [unfold Rdiv; ring|]. unfold Cm, mod2. cbn [fst snd]. rewrite Rmult_0_l, Rplus_0_r, sqrt_square; [reflexivity|left; apply Rinv_0_lt_compat, PD]. }
  assert (EZ : Cm (Csub Zv W) <= ulp * (Cm n / D) + 3 / 2 * et) by (rewrite <- EW; apply Cm_comp2; [lra|lra|exact H1|exact H2]).
  (* residual *)
  assert (R1 : Cm (Csub (Cmul Zv Y) X) <= Cm (Csub Zv W) * Cm Y + (Cm (Csub n N) * Cm Y + Rabs (D - M) * Cm X) / D).
  { replace (Csub (Cmul Zv Y) X) with (Cadd (Cmul (Csub Zv W) Y) (Cmul (/ D, 0) (Csub (Cmul (Csub n N) Y) (Cmul (D - M, 0) X)))).
    - eapply Rle_trans; [apply Cm_tri|]. rewrite !Cm_mul. apply Rplus_le_compat_l. replace (Cm (/ D, 0)) with (/ D).
      2:{ unfold Cm, mod2. cbn [fst snd]. rewrite Rmult_0_l, Rplus_0_r, sqrt_square; [reflexivity|left; apply Rinv_0_lt_compat, PD]. }
      unfold Rdiv. rewrite (Rmult_comm _ (/ D)). apply Rmult_le_compat_l; [left; apply Rinv_0_lt_compat, PD|]. eapply Rle_trans; [apply Cm_sub|]. rewrite !Cm_mul. apply Rplus_le_compat_l.
      right. f_equal. unfold Cm, mod2. cbn [fst snd]. rewrite Rmult_0_l, Rplus_0_r. replace ((D - M) * (D - M)) with (Rsqr (D - M)) by reflexivity. apply sqrt_Rsqr_abs.
    - unfold W, N. rewrite EM. unfold Cadd, Csub, Cmul, Cconj, X, Y. cbn [fst snd]. f_equal; field; lra. }
  (* bounds in terms of |X| *)
  assert (iY : Cm Y / D <= 1001 / 1000 * 10 ^ 50).
  { apply (Rmult_le_reg_r D); [exact PD|]. unfold Rdiv. rewrite Rmult_assoc, Rinv_l, Rmult_1_r by lra.
    assert (H : Cm Y * 1 <= M * 10 ^ 50). { unfold M. rewrite Rmult_assoc. apply Rmult_le_compat_l; [lra|]. apply (Rmult_le_compat_r (10 ^ 50)) in BY1; [|lra]. rewrite Rinv_l in BY1; lra. }
    assert (H3 : M * 10 ^ 50 <= 1001 / 1000 * D * 10 ^ 50) by (apply Rmult_le_compat_r; lra). lra. }
  assert (rY : Cm Y * Cm Y / D <= 1001 / 1000). { apply (Rmult_le_reg_r D); [exact PD|]. unfold Rdiv. rewrite Rmult_assoc, Rinv_l, Rmult_1_r by lra. exact DM. }
  assert (pY : 0 <= Cm Y / D) by (apply Rmult_le_pos; [lra|left; apply Rinv_0_lt_compat, PD]).
  assert (pr : 0 <= Cm Y * Cm Y / D) by (apply Rmult_le_pos; [apply Rmult_le_pos; lra|left; apply Rinv_0_lt_compat, PD]).
  assert (et50 : et * 10 ^ 50 <= / 1000 * tiny).
  { unfold et, tiny. replace (10 ^ 300) with (10 ^ 100 * (10 ^ 100 * 10 ^ 50) * 10 ^ 50) by (rewrite <- !pow_add; reflexivity). assert (1000 <= 10 ^ 100 * 10 ^ 50). { rewrite <- pow_add. apply Rle_trans with (10 ^ 3); [simpl; lra|apply p10; lia]. }
    generalize dependent (10 ^ 100 * 10 ^ 50). intros k Hk. assert (0 < / (10 ^ 100)) by (apply Rinv_0_lt_compat; lra). replace (/ (10 ^ 100 * k * 10 ^ 50) * 10 ^ 50) with (/ k * / 10 ^ 100) by (field; lra). apply Rmult_le_compat_r; [lra|]. apply Rinv_le; lra. }
  assert (tp : 0 < tiny) by (unfold tiny; apply Rinv_0_lt_compat; lra).
  assert (V1 : Cm (Csub Zv W) * Cm Y <= 1003 / 1000 * ulp * Cm X + / 100 * tiny).
  { apply Rle_trans with ((ulp * (Cm n / D) + 3 / 2 * et) * Cm Y); [apply Rmult_le_compat_r; lra|].
    replace ((ulp * (Cm n / D) + 3 / 2 * et) * Cm Y) with (ulp * (Cm n * (Cm Y / D)) + 3 / 2 * (et * Cm Y)) by (field; lra).
    assert (W1 : Cm n * (Cm Y / D) <= (1001 / 1000 * (Cm X * Cm Y) + 5 * et) * (Cm Y / D)) by (apply Rmult_le_compat_r; lra).
    replace ((1001 / 1000 * (Cm X * Cm Y) + 5 * et) * (Cm Y / D)) with (1001 / 1000 * (Cm X * (Cm Y * Cm Y / D)) + 5 * (et * (Cm Y / D))) in W1 by (field; lra).
    assert (W2 : Cm X * (Cm Y * Cm Y / D) <= Cm X * (1001 / 1000)) by (apply Rmult_le_compat_l; lra).
    assert (W3 : et * (Cm Y / D) <= et * (1001 / 1000 * 10 ^ 50)) by (apply Rmult_le_compat_l; lra).
    assert (W4 : et * Cm Y <= et * 10 ^ 50) by (apply Rmult_le_compat_l; lra).
    assert (W5 : ulp * (Cm n * (Cm Y / D)) <= ulp * (1001 / 1000 * (Cm X * (1001 / 1000)) + 5 * (1001 / 1000 * (/ 1000 * tiny)))) by (apply Rmult_le_compat_l; lra).
    assert (W6 : ulp * tiny <= / 1000000 * tiny) by (apply Rmult_le_compat_r; lra). assert (W7 : 0 <= ulp * Cm X) by (apply Rmult_le_pos; lra). lra. }
  assert (V2 : (Cm (Csub n N) * Cm Y + Rabs (D - M) * Cm X) / D <= 47 / 10 * ulp * Cm X + / 10 * tiny).
  { apply Rle_trans with (((26 / 10 * ulp * (Cm X * Cm Y) + 5 * et) * Cm Y + 2003 / 1000 * ulp * M * Cm X) / D).
    - unfold Rdiv. apply Rmult_le_compat_r; [left; apply Rinv_0_lt_compat, PD|]. apply Rplus_le_compat; apply Rmult_le_compat_r; lra.
    - replace (((26 / 10 * ulp * (Cm X * Cm Y) + 5 * et) * Cm Y + 2003 / 1000 * ulp * M * Cm X) / D) with (4603 / 1000 * ulp * (Cm X * (Cm Y * Cm Y / D)) + 5 * (et * (Cm Y / D))) by (unfold M; field; lra).
      assert (W2 : Cm X * (Cm Y * Cm Y / D) <= Cm X * (1001 / 1000)) by (apply Rmult_le_compat_l; lra).
      assert (W3 : et * (Cm Y / D) <= et * (1001 / 1000 * 10 ^ 50)) by (apply Rmult_le_compat_l; lra).
      assert (W5 : ulp * (Cm X * (Cm Y * Cm Y / D)) <= ulp * (Cm X * (1001 / 1000))) by (apply Rmult_le_compat_l; lra). assert (W7 : 0 <= ulp * Cm X) by (apply Rmult_le_pos; lra). lra. }
  assert (W7 : 0 <= ulp * Cm X) by (apply Rmult_le_pos; lra). eapply Rle_trans; [exact R1|]. change (Cm (Csub Zv W) * Cm Y + (Cm (Csub n N) * Cm Y + Rabs (D - M) * Cm X) / D <= 8 * ulp * Cm X + tiny). lra.
Qed.

Theorem accurate64 : accurate F64 fin64 val64.
Proof.
  assert (HH : huge * huge <= 10 ^ 240) by (unfold huge; rewrite <- pow_add; apply p10; lia). assert (H2 : 2 * huge <= 10 ^ 250) by (unfold huge; pose proof (p10 101 250 ltac:(lia)) as H; change (10 ^ 101) with (10 * 10 ^ 100) in H; pose proof (p10_pos 100); lra).
  assert (H3 : 10 ^ 240 <= 10 ^ 250) by (apply p10; lia). assert (HP : 0 < huge) by apply p10_pos. assert (T : 10 * et <= tiny).
  { unfold et, tiny. replace (10 ^ 300) with (10 ^ 100 * 10 ^ 200) by (rewrite <- pow_add; reflexivity). rewrite Rinv_mult. assert (0 < / 10 ^ 100) by (apply Rinv_0_lt_compat, p10_pos).
    assert (/ 10 ^ 200 <= / 10) by (apply Rinv_le; [lra|]; apply Rle_trans with (10 ^ 1); [lra|apply p10; lia]).
    assert (/ 10 ^ 100 * / 10 ^ 200 <= / 10 ^ 100 * / 10) by (apply Rmult_le_compat_l; lra). lra. }
  assert (TP := et_pos).
  split.
  - intros z Hz. apply int64_ok, Hz.
  - intros z Hz. assert (B : Rabs (IZR z) <= 10 ^ 250). { rewrite <- abs_IZR, pow_IZR. apply IZR_le. eapply Z.le_trans; [exact Hz|]. vm_compute. discriminate. }
    destruct (ofz64 z B) as [H4 H5]. split; [exact H4|]. cbn [fofz F64] in *. rewrite H5. destruct (Z.eq_dec z 0) as [->|Hnz].
    + rewrite round_0 by typeclasses eauto. rewrite Rminus_0_r, Rabs_R0. lra.
    + apply rnd_err1. rewrite <- abs_IZR. change 1 with (IZR 1). apply IZR_le. lia.
  - apply neg64.
  - intros x y Hx Hy B1 B2. apply add64; [exact Hx|exact Hy|]. eapply Rle_trans; [apply Rabs_triang|]. lra.
  - intros x y Hx Hy B1 B2. apply sub64; [exact Hx|exact Hy|]. unfold Rminus. eapply Rle_trans; [apply Rabs_triang|]. rewrite Rabs_Ropp. lra.
  - intros x y Hx Hy B1 B2. destruct (mul64 x y Hx Hy) as [H4 H5].
    + rewrite Rabs_mult. eapply Rle_trans; [|exact H3]. eapply Rle_trans; [|exact HH]. apply Rmult_le_compat; (apply Rabs_pos || assumption).
    + split; [exact H4|]. cbn [fmul F64]. lra.
  - intros x y Hx Hy B1 B2. assert (N : val64 y <> 0) by (intros E; rewrite E, Rabs_R0 in B2; lra). destruct (div64 x y Hx Hy N) as [H4 H5].
    + unfold Rdiv. rewrite Rabs_mult, Rabs_inv. assert (/ Rabs (val64 y) <= 1) by (rewrite <- Rinv_1; apply Rinv_le; lra). assert (0 < / Rabs (val64 y)) by (apply Rinv_0_lt_compat; lra).
      apply Rle_trans with (huge * 1); [apply Rmult_le_compat; (apply Rabs_pos || lra)|lra].
    + split; [exact H4|]. cbn [fdiv F64]. lra.
  - intros x Hx B. apply round64; assumption.
  - apply trunc64.
  - apply le64.
  - intros x y H4 H5 H6 H7 X Y BX BY z. destruct (cmul64 x y H4 H5 H6 H7) as [G1 [G2 G3]].
    + eapply Rle_trans; [|exact HH]. apply Rmult_le_compat; (apply Cm_pos || assumption).
    + split; [exact G1|]. split; [exact G2|]. eapply Rle_trans; [exact G3|]. change (26 / 10 * ulp * (Cm X * Cm Y) + 5 * et <= 3 * ulp * (Cm X * Cm Y) + tiny). assert (0 <= ulp * (Cm X * Cm Y)) by (apply Rmult_le_pos; [unfold ulp; lra|apply Rmult_le_pos; apply Cm_pos]). lra.
  - intros x y H4 H5 H6 H7 X Y BX BY. apply cdiv64; assumption.
  - intros x Hx P. destruct (sqrt64 x Hx P) as [H4 H5]. split; [exact H4|]. cbn [fsqrt F64]. lra.
  - apply floor64.
  - intros x y t Hx Hy Ht. apply maxgt64; [exact Hx|apply good_computed; exact Hy|exact Ht].
Qed.
