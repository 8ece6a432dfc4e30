(** P_fsamp.v -- samplerz in IEEE 754 binary64: no undefined cast, and thresholds close to the exact ones. *)
From Coq Require Import SpecFloat.
From Flocq Require Import Core Relative Plus_error BinarySingleNaN.
From Verif Require Import Base Spec SpecR SpecF M_float M_exact M_ieee M_samp P_l2 P_ieee.
From Verif Require P_samp P_sampz P_exp P_exact.
From Coq Require Import Lra Psatz.
Open Scope R_scope.
Local Existing Instance Hprec.
Local Existing Instance Hmax.

(** ** correctly rounded operations *)
Lemma fmt64 x : fin64 x -> generic_format radix2 fexp64 (val64 x).
Proof. intros H. destruct (lift x H) as (b & <- & _ & V). rewrite val_of. apply format_B2R. Qed.
Lemma rnd_mono a b : a <= b -> rnd a <= rnd b.
Proof. apply round_le; typeclasses eauto. Qed.
Lemma rnd_fmt a : generic_format radix2 fexp64 a -> rnd a = a.
Proof. apply round_generic. typeclasses eauto. Qed.
Lemma rnd_int z : (Z.abs z <= 2 ^ 53)%Z -> rnd (IZR z) = IZR z.
Proof. intros H. apply rnd_fmt, int_format, H. Qed.
Lemma ge_int z a : (Z.abs z <= 2 ^ 53)%Z -> IZR z <= a -> IZR z <= rnd a.
Proof. intros H L. rewrite <- (rnd_int z H). apply rnd_mono, L. Qed.
Lemma le_int z a : (Z.abs z <= 2 ^ 53)%Z -> a <= IZR z -> rnd a <= IZR z.
Proof. intros H L. rewrite <- (rnd_int z H). apply rnd_mono, L. Qed.
Lemma add64r x y : fin64 x -> fin64 y -> Rabs (val64 x + val64 y) <= 10 ^ 250 -> fin64 (sf_add x y) /\ val64 (sf_add x y) = rnd (val64 x + val64 y).
Proof.
  intros Hx Hy B. destruct (lift x Hx) as [bx [<- [Fx Vx]]]. destruct (lift y Hy) as [by_ [<- [Fy Vy]]]. rewrite add_equiv, !val_of in *.
  assert (C := Bplus_correct 53 1024 Hprec Hmax mode_NE bx by_ Fx Fy). rewrite no_over in C by exact B. destruct C as [C1 [C2 _]].
  split; [apply fin_of, C2|exact C1].
Qed.
Lemma sub64r x y : fin64 x -> fin64 y -> Rabs (val64 x - val64 y) <= 10 ^ 250 -> fin64 (sf_sub x y) /\ val64 (sf_sub x y) = rnd (val64 x - val64 y).
Proof.
  intros Hx Hy B. destruct (lift x Hx) as [bx [<- [Fx Vx]]]. destruct (lift y Hy) as [by_ [<- [Fy Vy]]]. rewrite sub_equiv, !val_of in *.
  assert (C := Bminus_correct 53 1024 Hprec Hmax mode_NE bx by_ Fx Fy). rewrite no_over in C by exact B. destruct C as [C1 [C2 _]].
  split; [apply fin_of, C2|exact C1].
Qed.
Lemma mul64r x y : fin64 x -> fin64 y -> Rabs (val64 x * val64 y) <= 10 ^ 250 -> fin64 (sf_mul x y) /\ val64 (sf_mul x y) = rnd (val64 x * val64 y).
Proof.
  intros Hx Hy B. destruct (lift x Hx) as [bx [<- [Fx Vx]]]. destruct (lift y Hy) as [by_ [<- [Fy Vy]]]. rewrite mul_equiv, !val_of in *.
  assert (C := Bmult_correct 53 1024 Hprec Hmax mode_NE bx by_). rewrite no_over in C by exact B. destruct C as [C1 [C2 _]].
  split; [apply fin_of; rewrite C2, Fx, Fy; reflexivity|exact C1].
Qed.
Lemma div64r x y : fin64 x -> fin64 y -> val64 y <> 0 -> Rabs (val64 x / val64 y) <= 10 ^ 250 -> fin64 (sf_div x y) /\ val64 (sf_div x y) = rnd (val64 x / val64 y).
Proof.
  intros Hx Hy N B. destruct (lift x Hx) as [bx [<- [Fx Vx]]]. destruct (lift y Hy) as [by_ [<- [Fy Vy]]]. rewrite div_equiv, !val_of in *.
  assert (C := Bdiv_correct 53 1024 Hprec Hmax mode_NE bx by_ N). rewrite no_over in C by exact B. destruct C as [C1 [C2 _]].
  split; [apply fin_of; rewrite C2; exact Fx|exact C1].
Qed.
Lemma big_ok a : Rabs a <= 10 ^ 40 -> Rabs a <= 10 ^ 250.
Proof. intros H. eapply Rle_trans; [exact H|]. apply p10. lia. Qed.
(** on a bounded interval the error of rounding is absolute *)
Lemma rnd_abs a m : Rabs a <= m -> Rabs (rnd a - a) <= ulp * m + et.
Proof. intros H. eapply Rle_trans; [apply rnd_err|]. assert (0 <= ulp) by (unfold ulp; lra). nra. Qed.
Lemma et_lt : et <= / 10 ^ 40.
Proof. unfold et. apply Rinv_le; [apply p10_pos|apply p10; lia]. Qed.
Lemma trunc_range lo hi x z : fin64 x -> val64 x = IZR z -> (lo <= z < hi)%Z -> to_range F64 lo hi x = Ok z.
Proof.
  intros Hf Hv H. unfold to_range. cbn [ftrunc F64]. rewrite trunc64 by exact Hf. rewrite Hv, P_exact.Rtrunc_IZR.
  destruct (Z.leb_spec lo z), (Z.ltb_spec z hi); try reflexivity; lia.
Qed.

(** ** r = x - floor(x / ln 2) ln 2 is never negative: a finite check *)
Definition ln2c : spec_float := Eval vm_compute in LN2 F64.
Definition inv2c : spec_float := Eval vm_compute in INV_LN2 F64.
Lemma ln2c_ok : LN2 F64 = ln2c. Proof. vm_compute. reflexivity. Qed.
Lemma inv2c_ok : INV_LN2 F64 = inv2c. Proof. vm_compute. reflexivity. Qed.
Definition chk (s : Z) : bool :=
  match sf_mul (sf_ofz s) ln2c with
  | S754_finite false m e =>
      (4503599627370496 <? Z.pos m)%Z && (Z.pos m <? 9007199254740992)%Z && (e <? 0)%Z && (-1074 <? e)%Z && SpecFloat.valid_binary 53 1024 (S754_finite false (Pos.pred m) e) &&
      SFltb (sf_mul (S754_finite false (Pos.pred m) e) inv2c) (sf_ofz s)
  | _ => false
  end.
Fixpoint upto (n : nat) (P : Z -> bool) : bool := match n with O => true | S n' => P (Z.of_nat n) && upto n' P end.
Lemma upto_ok n P s : upto n P = true -> (1 <= s <= Z.of_nat n)%Z -> P s = true.
Proof.
  induction n as [|n IH]; intros H Hs; [lia|]. cbn [upto] in H. apply andb_prop in H. destruct H as [H1 H2].
  destruct (Z.eq_dec s (Z.of_nat (S n))) as [->|N]; [exact H1|apply IH; [exact H2|lia]].
Qed.
Lemma chk_all : upto 263 chk = true.
Proof. vm_compute. reflexivity. Qed.

Lemma fin_ln2 : fin64 ln2c. Proof. split; [vm_compute; reflexivity|exact I]. Qed.
Lemma fin_inv2 : fin64 inv2c. Proof. split; [vm_compute; reflexivity|exact I]. Qed.
Lemma val_ln2 : val64 ln2c = 6243314768165359 / 9007199254740992.
Proof. unfold ln2c. rewrite val_neg by reflexivity. change (IZR (2 ^ (- -53))) with 9007199254740992. lra. Qed.
Lemma val_inv2 : val64 inv2c = 6497320848556798 / 4503599627370496.
Proof. unfold inv2c. rewrite val_neg by reflexivity. change (IZR (2 ^ (- -52))) with 4503599627370496. lra. Qed.
(** the doubles below m 2^e, 2^52 < m < 2^53, are at most (m-1) 2^e *)
Lemma below x (m e : Z) : generic_format radix2 fexp64 x -> (4503599627370496 < m < 9007199254740992)%Z -> (-1074 < e)%Z ->
  x < IZR m * bpow radix2 e -> x <= IZR (m - 1) * bpow radix2 e.
Proof.
  intros Hx Hm He Hlt. apply Rnot_lt_le. intros Hgt. pose proof (bpow_gt_0 radix2 e) as Pe.
  assert (M1 : 4503599627370496 <= IZR (m - 1)) by (apply IZR_le; lia). assert (M2 : IZR m <= 9007199254740992) by (apply IZR_le; lia).
  assert (X1 : bpow radix2 (53 + e - 1) <= x).
  { replace (53 + e - 1)%Z with (52 + e)%Z by lia. rewrite bpow_plus. change (bpow radix2 52) with 4503599627370496. nra. }
  assert (X2 : x < bpow radix2 (53 + e)).
  { rewrite bpow_plus. change (bpow radix2 53) with 9007199254740992. nra. }
  assert (C : cexp radix2 fexp64 x = e).
  { unfold cexp. rewrite (mag_unique_pos radix2 x (53 + e)) by (split; assumption). unfold FLT_exp. lia. }
  unfold generic_format in Hx. rewrite C in Hx. set (k := Ztrunc _) in Hx. clearbody k. unfold F2R in Hx. cbn [Fnum Fexp] in Hx.
  rewrite Hx in Hlt, Hgt. apply Rmult_lt_reg_r in Hlt; [|exact Pe]. apply Rmult_lt_reg_r in Hgt; [|exact Pe]. apply lt_IZR in Hlt. apply lt_IZR in Hgt. lia.
Qed.
Lemma fin_val m e : val64 (S754_finite false m e) = IZR (Z.pos m) * bpow radix2 e.
Proof. rewrite val64_SF. reflexivity. Qed.
Lemma no_neg x s : fin64 x -> (1 <= s <= 263)%Z -> IZR s <= rnd (val64 x * val64 inv2c) -> rnd (IZR s * val64 ln2c) <= val64 x.
Proof.
  intros Hx Hs H. apply Rnot_lt_le. intros L. pose proof (upto_ok 263 chk s chk_all Hs) as C. unfold chk in C.
  destruct (int64_ok s ltac:(lia)) as [Fs Vs].
  assert (B : Rabs (IZR s * val64 ln2c) <= 10 ^ 250).
  { apply big_ok. rewrite val_ln2. assert (0 <= IZR s <= 263) by (split; apply IZR_le; lia). rewrite Rabs_right by lra. assert (1000 <= 10 ^ 40) by (simpl; lra). lra. }
  destruct (mul64r (sf_ofz s) ln2c Fs fin_ln2) as [Fm Vm]; [rewrite Vs; exact B|]. rewrite Vs in Vm.
  destruct (sf_mul (sf_ofz s) ln2c) as [?|?| |[|] m e]; try discriminate.
  repeat match type of C with (_ && _)%bool = true => apply andb_prop in C; destruct C as [C ?] end. rename H0 into C1, H1 into C2, H2 into C3, H3 into C4, H4 into C5.
  apply Z.ltb_lt in C, C3, C4, C5. rewrite fin_val in Vm. rewrite <- Vm in L.
  pose proof (below (val64 x) (Z.pos m) e (fmt64 x Hx) ltac:(lia) C3 L) as L2.
  assert (Fp : fin64 (S754_finite false (Pos.pred m) e)) by (split; [exact C2|exact I]).
  assert (Vp : val64 (S754_finite false (Pos.pred m) e) = IZR (Z.pos m - 1) * bpow radix2 e).
  { rewrite fin_val. f_equal. f_equal. lia. }
  assert (L3 : rnd (val64 x * val64 inv2c) <= rnd (IZR (Z.pos m - 1) * bpow radix2 e * val64 inv2c)).
  { apply rnd_mono, Rmult_le_compat_r; [rewrite val_inv2; lra|exact L2]. }
  destruct (mul64r (S754_finite false (Pos.pred m) e) inv2c Fp fin_inv2) as [Fq Vq].
  { rewrite Vp. apply big_ok. assert (0 <= IZR (Z.pos m - 1) <= 9007199254740992) by (split; apply IZR_le; lia).
    assert (0 < bpow radix2 e <= 1) by (split; [apply bpow_gt_0|apply (bpow_le radix2 e 0); lia]). rewrite val_inv2.
    assert (G : 0 <= IZR (Z.pos m - 1) * bpow radix2 e <= 9007199254740992) by nra. rewrite Rabs_right by nra. assert (9007199254740992 * 2 <= 10 ^ 40) by (simpl; lra). lra. }
  rewrite Vp in Vq. apply lt64 in C1; [|exact Fq|exact Fs]. rewrite Vq, Vs in C1. lra.
Qed.

(** ** approx_exp *)
Notation w63 := P_exp.w63.
Notation w64 := P_exact.w64.
Lemma Rinv_abs x e : Rabs x <= e -> - e <= x <= e.
Proof. apply P_exp.Rabs_le_inv. Qed.
Lemma et_num : et <= / 1000000000000000000000000000000.
Proof. eapply Rle_trans; [exact et_lt|]. apply Rinv_le; [lra|]. apply Rle_trans with (10 ^ 30); [|apply p10; lia]. simpl. lra. Qed.
Lemma w63_ok : fin64 (sf_ofz 9223372036854775808) /\ val64 (sf_ofz 9223372036854775808) = w63.
Proof.
  destruct (ofz64 9223372036854775808) as [H1 H2].
  - apply big_ok. rewrite Rabs_right by lra. simpl. lra.
  - split; [exact H1|]. rewrite H2. change (IZR 9223372036854775808) with (bpow radix2 63). rewrite rnd_fmt; [reflexivity|]. apply generic_format_bpow. discriminate.
Qed.
Lemma rnd_w63 : rnd w63 = w63.
Proof. change w63 with (bpow radix2 63). apply rnd_fmt, generic_format_bpow. discriminate. Qed.
Lemma z63 v : fin64 v -> 0 <= val64 v <= 1 -> exists z, to_u64 F64 (ffloor F64 (fmul F64 (fofz F64 9223372036854775808) v)) = Ok z /\
  (0 <= z <= 2 ^ 63)%Z /\ Rabs (IZR z / w63 - val64 v) <= 223 / 1000000000000000000.
Proof.
  intros Hf Hv. cbn [ffloor fmul fofz F64]. destruct w63_ok as [F1 V1].
  assert (B0 : 0 <= w63 * val64 v <= w63) by (unfold P_exp.w63; lra).
  destruct (mul64r _ v F1 Hf) as [F2 V2].
  { rewrite V1. apply big_ok. rewrite Rabs_right by lra. apply Rle_trans with w63; [lra|]. unfold P_exp.w63. simpl. lra. }
  rewrite V1 in V2. destruct (floor64 _ F2) as [F3 V3]. rewrite V2 in V3.
  exists (Rfloor (rnd (w63 * val64 v))). pose proof (P_exact.Rfloor_spec (rnd (w63 * val64 v))) as G.
  assert (R0 : 0 <= rnd (w63 * val64 v) <= w63).
  { split; [rewrite <- (rnd_int 0) by lia; apply rnd_mono; lra|rewrite <- rnd_w63 at 2; apply rnd_mono; lra]. }
  assert (RZ : (0 <= Rfloor (rnd (w63 * val64 v)) <= 2 ^ 63)%Z).
  { split; [apply Z.lt_succ_r; apply lt_IZR; rewrite succ_IZR; lra|]. apply le_IZR. rewrite P_exp.IZR_w63. lra. }
  split; [apply trunc_range; [exact F3|exact V3|lia]|]. split; [exact RZ|].
  pose proof (rnd_abs (w63 * val64 v) w63 ltac:(rewrite Rabs_right; lra)) as A. apply Rinv_abs in A. pose proof et_num.
  apply Rabs_le. unfold ulp, P_exp.w63 in *. set (a := rnd _) in *. set (c := Rfloor a) in *. clearbody a c. lra.
Qed.
Lemma approx_exp_64 r ccs : fin64 r -> fin64 ccs -> 0 <= val64 r <= 6932 / 10000 -> / 1048576 <= val64 ccs <= 1 ->
  exists E, approx_exp F64 r ccs = Ok (E mod 2 ^ 63)%Z /\ (1 <= E <= 2 ^ 63)%Z /\ Rabs (IZR (2 * E - 1) / w64 - val64 ccs * exp (- val64 r)) <= / 1000000000000000.
Proof.
  intros Fr Fc Hr Hc. unfold approx_exp. change (D F64) with spec_float in *.
  destruct (z63 r Fr ltac:(lra)) as (z1 & -> & B1 & X1). cbn [bind]. destruct (z63 ccs Fc ltac:(lra)) as (z2 & -> & B2 & X2). cbn [bind].
  apply Rinv_abs in X1. apply Rinv_abs in X2. set (rr := val64 r) in *. set (cc := val64 ccs) in *.
  destruct (P_exp.exp_core_error z1 z2 ltac:(lia) ltac:(lra) B2) as (A & B & C).
  set (E := (z2 * P_exp.hval z1 / 2 ^ 63)%Z) in *. exists E. split; [exact C|].
  set (c := IZR z2 / w63) in *. set (x := IZR z1 / w63) in *.
  assert (Hx : 0 <= x). { destruct B1 as [P _]. apply IZR_le in P. unfold x, P_exp.w63. lra. }
  assert (Hc' : 0 <= c). { destruct B2 as [P _]. apply IZR_le in P. unfold c, P_exp.w63. lra. }
  assert (L : - (223 / 1000000000000000000) <= exp (- rr) - exp (- x) <= 223 / 1000000000000000000).
  { destruct (Rle_dec x rr) as [Q|Q].
    - pose proof (P_exact.exp_lip x (rr - x) ltac:(lra) Hx) as L. replace (x + (rr - x)) with rr in L by ring. lra.
    - pose proof (P_exact.exp_lip rr (x - rr) ltac:(lra) ltac:(lra)) as L. replace (rr + (x - rr)) with x in L by ring. lra. }
  assert (Ex : exp (- x) <= 1). { pose proof (P_exact.exp_lip 0 x ltac:(lra) ltac:(lra)) as L0. rewrite Ropp_0, exp_0, Rplus_0_l in L0. lra. }
  assert (Ex2 : 3 / 10 <= exp (- x)). { pose proof (P_exact.exp_lip 0 x ltac:(lra) ltac:(lra)) as L0. rewrite Ropp_0, exp_0, Rplus_0_l in L0. lra. }
  apply Rinv_abs in A.
  assert (D : - (448 / 1000000000000000000) <= cc * exp (- rr) - c * exp (- x) <= 448 / 1000000000000000000).
  { replace (cc * exp (- rr) - c * exp (- x)) with ((cc - c) * exp (- x) + cc * (exp (- rr) - exp (- x))) by ring.
    set (d1 := cc - c) in *. assert (-(223 / 1000000000000000000) <= d1 <= 223 / 1000000000000000000) by (unfold d1; lra). set (d2 := exp (- rr) - exp (- x)) in *. set (ex := exp (- x)) in *. clearbody d1 d2 ex. split; nra. }
  assert (Epos : (1 <= E)%Z).
  { assert (H : 0 < IZR E); [|apply lt_IZR in H; lia].
    assert (c * exp (- x) >= / 2097152 * (3 / 10)). { apply Rle_ge, Rmult_le_compat; lra. } unfold P_exp.w63 in *. lra. }
  split; [lia|]. rewrite minus_IZR, mult_IZR. apply Rabs_le. unfold P_exact.w64, P_exp.w63 in *. lra.
Qed.

(** ** ber_exp's threshold *)
Notation Lit2 := P_exact.Lit2.
Lemma threshold_core (s E : Z) (r ccs : R) : (0 <= s)%Z -> (1 <= E <= 2 ^ 63)%Z -> 0 <= r <= 6932 / 10000 -> / 1048576 <= ccs <= 1 ->
  Rabs (IZR (2 * E - 1) / w64 - ccs * exp (- r)) <= / 1000000000000000 ->
  Rabs (IZR (Z.shiftr (2 * E - 1) (Z.min s 63)) / w64 - ccs * exp (- (r + IZR s * Lit2))) <= / 2 ^ 47 * exp (- (r + IZR s * Lit2)) + / 2 ^ 63.
Proof.
  intros S0 HE Hr Hc A. set (x := r + IZR s * Lit2). rewrite Z.shiftr_div_pow2 by lia.
  assert (Er : exp (- r) <= 1). { pose proof (P_exact.exp_lip 0 r ltac:(lra) ltac:(lra)) as L0. rewrite Ropp_0, exp_0, Rplus_0_l in L0. lra. }
  assert (Er2 : 498 / 1000 <= exp (- r)).
  { pose proof P_exact.exp_Lit2 as X. apply Rinv_abs in X.
    assert (Y : exp (- (Lit2 + 1 / 1000)) <= exp (- r)).
    { destruct (P_exact.exp_lip r (Lit2 + 1 / 1000 - r)) as [_ L0]; [unfold P_exact.Lit2; lra|lra|]. replace (r + (Lit2 + 1 / 1000 - r)) with (Lit2 + 1 / 1000) in L0 by ring. exact L0. }
    destruct (P_exact.exp_lip Lit2 (1 / 1000)) as [L1 _]; [lra|unfold P_exact.Lit2; lra|]. lra. }
  assert (Ns : exists n, s = Z.of_nat n) by (exists (Z.to_nat s); lia). destruct Ns as (n & Hn).
  assert (EX : exp (- x) = exp (- r) * exp (- Lit2) ^ n).
  { replace (- x) with (- r + INR n * - Lit2) by (unfold x; rewrite Hn, <- INR_IZR_INZ; ring). rewrite exp_plus. f_equal.
    clear. induction n as [|n IH]; [cbn; rewrite Rmult_0_l; apply exp_0|]. rewrite S_INR, Rmult_plus_distr_r, exp_plus, IH, Rmult_1_l. cbn [pow]. ring. }
  pose proof (exp_pos (- x)) as PX. apply Rinv_abs in A.
  destruct (Z.le_gt_cases s 63) as [C|C].
  - rewrite Z.min_l by exact C. pose proof (P_exp.div_real (2 * E - 1) (2 ^ s) ltac:(apply Z.pow_pos_nonneg; lia)) as Dv.
    rewrite Hn in *. rewrite P_exact.shift_R in Dv. set (P2 := 2 ^ n) in *.
    assert (HP : 1 <= P2) by (unfold P2; apply pow_R1_Rle; lra).
    assert (HN : INR n <= 63). { replace 63 with (INR 63) by (rewrite INR_IZR_INZ; reflexivity). apply le_INR. lia. }
    assert (W : Rabs ((2 * exp (- Lit2)) ^ n - 1) <= 2 * INR n * (1 / 100000000000000000)) by (apply P_exact.pow_near; [lra|lra|exact P_exact.exp_Lit2]).
    rewrite Rpow_mult_distr in W. fold P2 in W. apply Rinv_abs in W. set (L := exp (- Lit2) ^ n) in *.
    assert (W' : - (13 / 10000000000000000) <= P2 * L - 1 <= 13 / 10000000000000000) by (pose proof (pos_INR n); split; nra). clear W.
    set (t := IZR ((2 * E - 1) / 2 ^ Z.of_nat n)) in *. set (v := IZR (2 * E - 1)) in *. set (e := exp (- r)) in *. rewrite EX.
    assert (Dv' : v / w64 / P2 - / w64 <= t / w64 <= v / w64 / P2).
    { unfold P_exact.w64. replace (v / 18446744073709551616 / P2) with (v / P2 / 18446744073709551616) by (field; lra). lra. }
    clear Dv. set (q := v / w64) in *. clearbody q t.
    assert (IP : 0 < / P2) by (apply Rinv_0_lt_compat; lra).
    assert (LL : L = / P2 + (P2 * L - 1) * / P2) by (field; lra).
    set (d := P2 * L - 1) in *. clearbody d. clearbody L. subst L. set (i := / P2) in *. replace (q / P2) with (q * i) in Dv' by reflexivity. clearbody i.
    assert (Q : - (/ 1000000000000000 * i) <= q * i - ccs * e * i <= / 1000000000000000 * i) by (split; nra).
    assert (CE : 0 <= ccs * e <= 1) by nra.
    assert (Z1 : - (13 / 10000000000000000 * i) <= ccs * e * (d * i) <= 13 / 10000000000000000 * i).
    { assert (- (13 / 10000000000000000 * i) <= d * i <= 13 / 10000000000000000 * i) by nra. split; nra. }
    assert (Z2 : 497 / 1000 * i <= e * (i + d * i)).
    { assert (D1 : - (13 / 10000000000000000 * i) <= d * i) by nra. set (k := i + d * i) in *. assert (498 / 1000 * k <= e * k) by (apply Rmult_le_compat_r; unfold k; lra). unfold k in *. lra. }
    apply Rabs_le. unfold P_exact.w64 in *. replace (ccs * (e * (i + d * i))) with (ccs * e * i + ccs * e * (d * i)) by ring.
    set (A1 := ccs * e * i) in *. set (A2 := ccs * e * (d * i)) in *. set (A3 := q * i) in *. set (A4 := e * (i + d * i)) in *. set (A5 := t / 18446744073709551616) in *.
    clearbody A1 A2 A3 A4 A5. lra.
  - rewrite Z.min_r by lia.
    assert (T : (0 <= (2 * E - 1) / 2 ^ 63 <= 1)%Z). { change (2 ^ 63)%Z with 9223372036854775808%Z in *. lia. }
    assert (T' : 0 <= IZR ((2 * E - 1) / 2 ^ 63) <= 1) by (split; [apply (IZR_le 0)|apply (IZR_le _ 1)]; lia).
    set (t := IZR ((2 * E - 1) / 2 ^ 63)) in *. clearbody t.
    assert (XS : exp (- x) <= / 9223372036854775808 - / 18446744073709551616 + / 36893488147419103232 * 1 / 10).
    { rewrite EX. replace n with (64 + (n - 64))%nat by lia. rewrite pow_add.
      pose proof P_exact.exp_Lit2 as X. apply Rinv_abs in X. pose proof (exp_pos (- Lit2)) as P1.
      assert (N64 : ((1 + 1 / 100000000000000000) / 2) ^ 64 <= / 18446744073709551616 * (1 + 1 / 1000)).
      { unfold Rdiv at 1. rewrite Rpow_mult_distr. pose proof (P_exact.pow_near (1 / 100000000000000000) 64 ltac:(lra)) as PN.
        replace (INR 64) with 64 in PN by (rewrite INR_IZR_INZ; reflexivity). specialize (PN ltac:(lra) (1 + 1 / 100000000000000000)).
        replace (1 + 1 / 100000000000000000 - 1) with (1 / 100000000000000000) in PN by ring. rewrite Rabs_right in PN by lra. specialize (PN ltac:(lra)). apply Rinv_abs in PN.
        rewrite pow_inv. rewrite (pow_IZR 2 64). change (IZR (2 ^ Z.of_nat 64)) with 18446744073709551616.
        set (u := (1 + 1 / 100000000000000000) ^ 64) in *. clearbody u. lra. }
      assert (AA : exp (- Lit2) ^ 64 <= / 18446744073709551616 * (1 + 1 / 1000)) by (apply Rle_trans with (2 := N64); apply pow_incr; split; [left; exact P1|clear N64; lra]). clear N64.
      assert (exp (- Lit2) ^ (n - 64) <= 1). { rewrite <- (pow1 (n - 64)). apply pow_incr. lra. }
      assert (0 < exp (- Lit2) ^ (n - 64)) by (apply pow_lt; exact P1). assert (0 < exp (- Lit2) ^ 64) by (apply pow_lt; exact P1).
      set (a := exp (- Lit2) ^ 64) in *. set (b := exp (- Lit2) ^ (n - 64)) in *. clearbody a b.
      assert (AB : 0 <= a * b <= a * 1) by (split; [apply Rmult_le_pos; lra|apply Rmult_le_compat_l; lra]). pose proof (exp_pos (- r)).
      assert (exp (- r) * (a * b) <= 1 * (a * 1)) by (apply Rmult_le_compat; lra). lra. }
    apply Rabs_le. unfold P_exact.w64. pose proof (exp_pos (- r)).
    assert (H0 : 0 <= ccs * exp (- x) <= exp (- x)) by (split; [apply Rmult_le_pos; lra|apply Rle_trans with (1 * exp (- x)); [apply Rmult_le_compat_r; lra|lra]]).
    set (y := ccs * exp (- x)) in *. clearbody y. set (z := exp (- x)) in *. clearbody z. clear - T' XS H0 PX.
    lra.
Qed.
(** a small change of the exponent *)
Lemma exp_near x y d : Rabs (x - y) <= d -> d <= 1 / 10 -> Rabs (exp (- x) - exp (- y)) <= 2 * d * exp (- y) /\ exp (- x) <= 2 * exp (- y).
Proof.
  intros H Hd. apply Rinv_abs in H. replace (- x) with (- y + - (x - y)) by ring. rewrite exp_plus. set (h := x - y) in *. pose proof (exp_pos (- y)) as P.
  assert (L : 1 - 2 * d <= exp (- h) <= 1 + 2 * d).
  { split.
    - assert (1 + - h <= exp (- h)). { destruct (Req_dec h 0) as [->|N]; [replace (-0) with 0 by ring; rewrite exp_0; lra|]. left. apply exp_ineq1. lra. } lra.
    - assert (1 + h <= exp h). { destruct (Req_dec h 0) as [->|N]; [rewrite exp_0; lra|]. left. apply exp_ineq1. lra. }
      rewrite exp_Ropp. apply Rle_trans with (/ (1 + h)); [apply Rinv_le; lra|]. apply Rmult_le_reg_l with (1 + h); [lra|]. rewrite Rinv_r by lra. nra. }
  set (e := exp (- h)) in *. clearbody e. set (k := exp (- y)) in *. clearbody k. split; [|nra]. replace (k * e - k) with (k * (e - 1)) by ring. rewrite Rabs_mult, (Rabs_right k) by lra.
  assert (Rabs (e - 1) <= 2 * d) by (apply Rabs_le; lra). nra.
Qed.
Lemma threshold_64 x ccs : fin64 x -> fin64 ccs -> 0 <= val64 x <= 181 -> / 1048576 <= val64 ccs <= 1 ->
  exists t, ber_threshold F64 x ccs = Ok t /\ Rabs (IZR t / w64 - val64 ccs * exp (- val64 x)) <= / 2 ^ 43 * exp (- val64 x) + / 2 ^ 63.
Proof.
  intros Fx Fc Hx Hc. unfold ber_threshold. rewrite ln2c_ok, inv2c_ok. cbn [ffloor fmul fsub F64].
  set (X := val64 x) in *. pose proof et_num as ET.
  destruct (mul64r x inv2c Fx fin_inv2) as [F1 V1].
  { apply big_ok. fold X. rewrite val_inv2, Rabs_right by lra. apply Rle_trans with 1000; [lra|simpl; lra]. }
  fold X in V1. set (y := rnd (X * val64 inv2c)) in *.
  assert (Y : Rabs (y - X * val64 inv2c) <= ulp * 262 + et) by (apply rnd_abs; rewrite val_inv2, Rabs_right; lra).
  assert (Y0 : 0 <= y). { unfold y. rewrite <- (rnd_int 0) by lia. apply rnd_mono. rewrite val_inv2. lra. }
  apply Rinv_abs in Y. rewrite val_inv2 in Y.
  destruct (floor64 _ F1) as [F2 V2]. rewrite V1 in V2. set (s := Rfloor y) in *. pose proof (P_exact.Rfloor_spec y) as G. fold s in G.
  assert (S1 : (0 <= s <= 263)%Z).
  { split; [apply Z.lt_succ_r; apply lt_IZR; rewrite succ_IZR; lra|]. apply le_IZR. unfold ulp in Y. lra. }
  assert (S1' : 0 <= IZR s <= 263) by (split; apply IZR_le; lia).
  destruct (mul64r _ ln2c F2 fin_ln2) as [F3 V3].
  { apply big_ok. rewrite V2, val_ln2, Rabs_right by lra. apply Rle_trans with 1000; [lra|simpl; lra]. }
  rewrite V2 in V3. set (p := rnd (IZR s * val64 ln2c)) in *.
  assert (P : Rabs (p - IZR s * val64 ln2c) <= ulp * 183 + et) by (apply rnd_abs; rewrite val_ln2, Rabs_right; lra).
  apply Rinv_abs in P. rewrite val_ln2 in P.
  assert (PX : 0 <= p <= X).
  { split; [unfold p; rewrite <- (rnd_int 0) by lia; apply rnd_mono; rewrite val_ln2; lra|].
    destruct (Z.eq_dec s 0) as [E0|N]; [unfold p; rewrite E0, Rmult_0_l, (rnd_int 0) by lia; lra|].
    apply no_neg; [exact Fx|lia|fold X; fold y; lra]. }
  destruct (sub64r x _ Fx F3) as [F4 V4]. { rewrite V3. fold X. apply big_ok. rewrite Rabs_right by lra. apply Rle_trans with 1000; [lra|simpl; lra]. }
  rewrite V3 in V4. fold X in V4. set (r := rnd (X - p)) in *.
  assert (R0 : 0 <= r). { unfold r. rewrite <- (rnd_int 0) by lia. apply rnd_mono. lra. }
  assert (X1 : X - p <= 69315 / 100000) by (unfold ulp in *; lra).
  assert (R1 : Rabs (r - (X - p)) <= ulp * 1 + et) by (apply rnd_abs; rewrite Rabs_right; lra). apply Rinv_abs in R1.
  assert (TS : to_u64 F64 (sf_floor (sf_mul x inv2c)) = Ok s) by (apply trunc_range; [exact F2|exact V2|lia]).
  change (D F64) with spec_float in *. rewrite TS. cbn [bind].
  destruct (approx_exp_64 _ ccs F4 Fc) as (E & -> & HE & A); [rewrite V4; unfold ulp in *; lra|exact Hc|]. cbn [bind]. rewrite V4 in A.
  assert (U : (u64 (2 * (E mod 2 ^ 63) - 1) = 2 * E - 1)%Z).
  { unfold u64. change (2 ^ 63)%Z with 9223372036854775808%Z in *. lia. }
  rewrite U. eexists. split; [reflexivity|].
  pose proof (threshold_core s E r (val64 ccs) ltac:(lia) HE ltac:(unfold ulp in *; lra) Hc A) as T.
  assert (N : Rabs (r + IZR s * Lit2 - X) <= 5 / 100000000000000).
  { apply Rabs_le. unfold ulp, P_exact.Lit2 in *. clear - P R1 S1' ET. set (q := IZR s) in *. clearbody q. lra. }
  destruct (exp_near _ _ _ N ltac:(lra)) as [N1 N2]. set (e' := exp (- (r + IZR s * Lit2))) in *. set (e := exp (- X)) in *.
  pose proof (exp_pos (- X)) as PE. fold e in PE. pose proof (exp_pos (- (r + IZR s * Lit2))) as PE'. fold e' in PE'.
  apply Rinv_abs in T. apply Rinv_abs in N1. set (t := IZR (Z.shiftr (2 * E - 1) (Z.min s 63)) / w64) in *. set (c := val64 ccs) in *.
  assert (M : - (1 / 10000000000000 * e) <= c * e' - c * e <= 1 / 10000000000000 * e).
  { replace (c * e' - c * e) with (c * (e' - e)) by ring. set (d := e' - e) in *. clearbody d. clear - N1 Hc PE. split; nra. }
  apply Rabs_le. clearbody t e e' c. set (k1 := c * e') in *. set (k2 := c * e) in *. clearbody k1 k2. clear - T M N1 PE PE'. simpl in *. lra.
Qed.

(** ** the exponent of a proposal *)
Lemma mod_small a m : Rabs a <= m -> m <= 10 ^ 40 -> Rabs a <= 10 ^ 250.
Proof. intros H1 H2. apply big_ok. lra. Qed.
Lemma k40 : 10000000000000000 <= 10 ^ 40.
Proof. simpl. lra. Qed.
Definition inv2 (v : R) : R := rnd (1 / rnd (rnd (2 * v) * v)).
Lemma inv2_in v : 1 <= v <= 1830 / 1000 -> 2 <= rnd (2 * v) <= 4 /\ 2 <= rnd (rnd (2 * v) * v) <= 8 /\ / 8 <= inv2 v <= / 2 /\ Rabs (inv2 v - / (2 * v ^ 2)) <= 5 / 10000000000000000.
Proof.
  intros H. pose proof et_num as ET.
  assert (A : 2 <= rnd (2 * v) <= 4). { split; [apply ge_int|apply le_int]; try lia; lra. }
  assert (B : 2 <= rnd (rnd (2 * v) * v) <= 8). { split; [apply ge_int|apply le_int]; try lia; nra. }
  assert (EA : Rabs (rnd (2 * v) - 2 * v) <= ulp * 4 + et) by (apply rnd_abs; rewrite Rabs_right; lra).
  assert (EB : Rabs (rnd (rnd (2 * v) * v) - rnd (2 * v) * v) <= ulp * 8 + et) by (apply rnd_abs; rewrite Rabs_right; nra).
  apply Rinv_abs in EA. apply Rinv_abs in EB. unfold inv2. set (a := rnd (2 * v)) in *. set (c := rnd (a * v)) in *. clearbody c a.
  assert (I : / 8 <= 1 / c <= / 2). { unfold Rdiv. rewrite Rmult_1_l. split; apply Rinv_le; lra. }
  assert (F8 : generic_format radix2 fexp64 (/ 8)). { replace (/ 8) with (bpow radix2 (-3)) by (unfold bpow; simpl; lra). apply generic_format_bpow. discriminate. }
  assert (F2 : generic_format radix2 fexp64 (/ 2)). { replace (/ 2) with (bpow radix2 (-1)) by (unfold bpow; simpl; lra). apply generic_format_bpow. discriminate. }
  split; [exact A|]. split; [exact B|]. split.
  { split; [rewrite <- (rnd_fmt (/ 8) F8) at 1|rewrite <- (rnd_fmt (/ 2) F2)]; apply rnd_mono; lra. }
  assert (EC : Rabs (rnd (1 / c) - 1 / c) <= ulp * / 2 + et) by (apply rnd_abs; rewrite Rabs_right; lra). apply Rinv_abs in EC.
  assert (EE : - (16 * ulp) <= c - 2 * v ^ 2 <= 16 * ulp).
  { replace (c - 2 * v ^ 2) with ((c - a * v) + v * (a - 2 * v)) by ring. set (d := a - 2 * v) in *. assert (- (ulp * 4 + et) * 183 / 100 <= v * d <= (ulp * 4 + et) * 183 / 100). { assert (0 <= ulp * 4 + et) by lra. clearbody d. split; nra. } unfold ulp in *. lra. }
  set (w := 2 * v ^ 2) in *. assert (W : 2 <= w) by (unfold w; nra). clearbody w.
  assert (D : Rabs (1 / c - / w) <= 16 * ulp / 4).
  { replace (1 / c - / w) with ((w - c) * (/ c * / w)) by (field; lra). rewrite Rabs_mult.
    assert (Q : 0 <= / c * / w <= / 4). { assert (0 < / c) by (apply Rinv_0_lt_compat; lra). assert (0 < / w) by (apply Rinv_0_lt_compat; lra). assert (/ w <= / 2) by (apply Rinv_le; lra). assert (/ c <= / 2) by lra. split; nra. }
    rewrite (Rabs_right (/ c * / w)) by lra. assert (Rabs (w - c) <= 16 * ulp) by (apply Rabs_le; lra). pose proof (Rabs_pos (w - c)). unfold ulp in *. set (m := / c * / w) in *. set (n := Rabs (w - c)) in *. clearbody m n. nra. }
  apply Rinv_abs in D. apply Rabs_le. unfold ulp in *. lra.
Qed.
Lemma inv2_mono v w : 1 <= v -> v <= w -> w <= 1830 / 1000 -> inv2 w <= inv2 v.
Proof.
  intros H1 H2 H3. destruct (inv2_in v ltac:(lra)) as (A & B & _). destruct (inv2_in w ltac:(lra)) as (A' & B' & _). unfold inv2. apply rnd_mono.
  unfold Rdiv. rewrite !Rmult_1_l. apply Rinv_le; [lra|]. apply rnd_mono. apply Rmult_le_compat; try lra. apply rnd_mono. lra.
Qed.
Lemma inv_2sq_64 s : fin64 s -> 1 <= val64 s <= 1830 / 1000 -> fin64 (inv_2sq F64 s) /\ val64 (inv_2sq F64 s) = inv2 (val64 s).
Proof.
  intros Fs Hs. unfold inv_2sq. cbn [fdiv fofz fmul F64]. destruct (int64_ok 1 ltac:(lia)) as [F1 V1]. destruct (int64_ok 2 ltac:(lia)) as [F2 V2].
  destruct (inv2_in (val64 s) Hs) as (A & B & C & _). pose proof k40 as K.
  destruct (mul64r _ s F2 Fs) as [F3 V3]; [rewrite V2; apply (mod_small _ 8); [rewrite Rabs_right; lra|lra]|]. rewrite V2 in V3.
  destruct (mul64r _ s F3 Fs) as [F4 V4]; [rewrite V3; apply (mod_small _ 8); [rewrite Rabs_right; nra|lra]|]. rewrite V3 in V4.
  destruct (div64r _ _ F1 F4) as [F5 V5]; [rewrite V4; lra| |].
  - rewrite V1, V4. apply (mod_small _ 8); [|lra]. assert (0 < / rnd (rnd (2 * val64 s) * val64 s) <= / 2) by (split; [apply Rinv_0_lt_compat|apply Rinv_le]; lra). unfold Rdiv. rewrite Rabs_right; lra.
  - split; [exact F5|]. rewrite V5, V1, V4. reflexivity.
Qed.
Definition smax : spec_float := Eval vm_compute in sigma_max F64.
Lemma smax_ok : sigma_max F64 = smax. Proof. vm_compute. reflexivity. Qed.
Lemma fin_smax : fin64 smax. Proof. split; [vm_compute; reflexivity|exact I]. Qed.
Lemma smax_rnd : val64 (sigma_max F64) = rnd (18205 / 10000).
Proof.
  unfold sigma_max, flit. cbn [fdiv fofz F64]. destruct (int64_ok 18205 ltac:(lia)) as [F1 V1]. destruct (int64_ok (10 ^ 4) ltac:(lia)) as [F2 V2].
  change (IZR (10 ^ 4)) with 10000 in V2. destruct (div64r _ _ F1 F2) as [_ V]; [rewrite V2; lra| |rewrite V, V1, V2; reflexivity].
  rewrite V1, V2. apply (mod_small _ 8); [rewrite Rabs_right; lra|simpl; lra].
Qed.
Lemma smax_in : Rabs (val64 smax - 18205 / 10000) <= 3 / 10000000000000000.
Proof. rewrite <- smax_ok, smax_rnd. eapply Rle_trans; [apply (rnd_abs _ 2); rewrite Rabs_right; lra|]. pose proof et_num. unfold ulp. lra. Qed.
Lemma le_smax s : fin64 s -> val64 s <= 18205 / 10000 -> val64 s <= val64 smax.
Proof. intros Fs H. rewrite <- smax_ok, smax_rnd, <- (rnd_fmt (val64 s) (fmt64 s Fs)). apply rnd_mono, H. Qed.
Lemma rem_64 mu : fin64 mu -> Rabs (val64 mu) <= 10000000000 -> let r := fsub F64 mu (ffloor F64 mu) in
  fin64 r /\ 0 <= val64 r <= 1 /\ Rabs (val64 r - (val64 mu - IZR (Rfloor (val64 mu)))) <= ulp + et.
Proof.
  intros Fm Hm. cbn zeta. cbn [fsub ffloor F64]. destruct (floor64 mu Fm) as [F1 V1]. pose proof (P_exact.Rfloor_spec (val64 mu)) as G.
  set (d := val64 mu - IZR (Rfloor (val64 mu))). assert (Hd : 0 <= d <= 1) by (unfold d; lra).
  destruct (sub64r mu _ Fm F1) as [F2 V2].
  - rewrite V1. fold d. apply (mod_small _ 8); [rewrite Rabs_right; lra|simpl; lra].
  - split; [exact F2|]. rewrite V2, V1. fold d. split.
    + split; [apply ge_int|apply le_int]; try lia; lra.
    + eapply Rle_trans; [apply (rnd_abs d 1); rewrite Rabs_right; lra|]. lra.
Qed.
Lemma exponent_64 mu s z0 b : fin64 mu -> fin64 s -> Rabs (val64 mu) <= 10000000000 -> 1 <= val64 s <= 18205 / 10000 -> (z0 < 19)%nat -> b = 0%Z \/ b = 1%Z ->
  let x := exponent F64 (fsub F64 mu (ffloor F64 mu)) (inv_2sq F64 s) (inv_2sq F64 (sigma_max F64)) (Z.of_nat z0) b in
  fin64 x /\ 0 <= val64 x <= 181 /\ Rabs (val64 x - P_exact.xval (val64 mu) (val64 s) z0 b) <= 6 / 10000000000000.
Proof.
  intros Fm Fs Hm Hs Hz Hb x. unfold x, exponent. clear x. pose proof et_num as ET. pose proof k40 as K.
  destruct (rem_64 mu Fm Hm) as (Fr & Hr & Er). set (r := fsub F64 mu (ffloor F64 mu)) in *. set (rr := val64 mu - IZR (Rfloor (val64 mu))) in *.
  rewrite smax_ok. pose proof smax_in as SM. apply Rinv_abs in SM.
  destruct (inv_2sq_64 s Fs ltac:(lra)) as [F0 V0]. destruct (inv_2sq_64 smax fin_smax ltac:(lra)) as [F1 V1].
  destruct (inv2_in (val64 s) ltac:(lra)) as (_ & _ & I0 & J0). destruct (inv2_in (val64 smax) ltac:(lra)) as (_ & _ & I1 & J1).
  pose proof (inv2_mono (val64 s) (val64 smax) ltac:(lra) (le_smax s Fs ltac:(lra)) ltac:(lra)) as MO.
  set (t0 := inv2 (val64 s)) in *. set (t1 := inv2 (val64 smax)) in *.
  cbn [fsub fmul fofz F64]. rewrite <- P_sampz.signed_eq by exact Hb. pose proof (P_sampz.signed_range z0 b Hz) as ZR.
  destruct (int64_ok (zsigned z0 b) ltac:(lia)) as [Fz Vz]. destruct (int64_ok (Z.of_nat z0 * Z.of_nat z0) ltac:(nia)) as [F5 V5].
  rewrite mult_IZR, <- INR_IZR_INZ in V5. set (n := INR z0) in *.
  assert (Hn : 0 <= n <= 18). { split; [apply pos_INR|]. replace 18 with (INR 18) by (rewrite INR_IZR_INZ; reflexivity). apply le_INR. lia. }
  unfold P_exact.xval. fold rr. fold n. set (zz := IZR (zsigned z0 b)) in *. set (vr := val64 r) in *.
  assert (T2 : exists sg, (sg = 1 \/ sg = -1) /\ n <= sg * (zz - vr) <= n + 1 /\ n <= sg * rnd (zz - vr) <= n + 1 /\ n <= sg * (zz - rr) <= n + 1).
  { assert (RR : 0 <= rr <= 1). { pose proof (P_exact.Rfloor_spec (val64 mu)). unfold rr. lra. }
    assert (N1 : IZR (Z.of_nat z0) = n) by (symmetry; apply INR_IZR_INZ). assert (N2 : IZR (Z.of_nat z0 + 1) = n + 1) by (rewrite plus_IZR, N1; reflexivity).
    unfold zz, zsigned. destruct Hb as [->| ->]; cbn [Z.eqb Pos.eqb].
    - exists (-1). split; [right; reflexivity|]. rewrite opp_IZR, N1. split; [lra|]. split; [|lra].
      assert (rnd (- n - vr) <= - n). { replace (- n) with (IZR (- Z.of_nat z0)) at 2 by (rewrite opp_IZR, N1; reflexivity). apply le_int; [lia|]. rewrite opp_IZR, N1. lra. }
      assert (- (n + 1) <= rnd (- n - vr)). { replace (- (n + 1)) with (IZR (- (Z.of_nat z0 + 1))) by (rewrite opp_IZR, N2; reflexivity). apply ge_int; [lia|]. rewrite opp_IZR, N2. lra. }
      lra.
    - exists 1. split; [left; reflexivity|]. rewrite plus_IZR, N1. split; [lra|]. split; [|lra].
      assert (n <= rnd (1 + n - vr)). { rewrite <- N1. apply ge_int; [lia|]. rewrite N1. lra. }
      assert (rnd (1 + n - vr) <= n + 1). { rewrite <- N2. apply le_int; [lia|]. rewrite N2. lra. }
      lra. }
  destruct T2 as (sg & Hsg & B1 & B2 & B3). assert (SQ : sg * sg = 1) by (destruct Hsg; subst sg; ring).
  assert (B1' : Rabs (zz - vr) <= 19) by (destruct Hsg; subst sg; apply Rabs_le; lra).
  destruct (sub64r _ r Fz Fr) as [F2 V2]; [rewrite Vz; fold vr; apply (mod_small _ 19); lra|]. rewrite Vz in V2. fold vr in V2.
  pose proof (rnd_abs (zz - vr) 19 B1') as E2. set (t2 := rnd (zz - vr)) in *. set (U := zz - rr) in *.
  assert (Hn2 : n * n <= 324) by nra.
  assert (Q2 : n * n <= t2 * t2 <= 361).
  { assert (EQ : t2 * t2 = (sg * t2) * (sg * t2)) by (replace ((sg * t2) * (sg * t2)) with (sg * sg * (t2 * t2)) by ring; rewrite SQ; ring). rewrite EQ. set (w := sg * t2) in *. clearbody w. split; nra. }
  assert (QU : U * U <= 361).
  { assert (EQ : U * U = (sg * U) * (sg * U)) by (replace ((sg * U) * (sg * U)) with (sg * sg * (U * U)) by ring; rewrite SQ; ring). rewrite EQ. set (w := sg * U) in *. clearbody w. nra. }
  assert (EU : Rabs (t2 - U) <= 20 * ulp + 2 * et).
  { replace (t2 - U) with ((t2 - (zz - vr)) + - (vr - rr)) by (unfold U; ring). eapply Rle_trans; [apply Rabs_triang|]. rewrite Rabs_Ropp. lra. }
  assert (TU : Rabs (t2 + U) <= 38) by (destruct Hsg; subst sg; apply Rabs_le; unfold U in *; lra).
  destruct (mul64r _ _ F2 F2) as [F3 V3]; [rewrite V2; apply (mod_small _ 361); [rewrite Rabs_right; nra|lra]|]. rewrite V2 in V3.
  assert (E3 : Rabs (rnd (t2 * t2) - t2 * t2) <= ulp * 361 + et) by (apply rnd_abs; rewrite Rabs_right; nra).
  assert (Q3 : n * n <= rnd (t2 * t2) <= 361).
  { assert (N1 : IZR (Z.of_nat z0 * Z.of_nat z0) = n * n) by (rewrite mult_IZR; unfold n; rewrite !INR_IZR_INZ; reflexivity).
    split; [rewrite <- N1; apply ge_int; [nia|rewrite N1; lra]|apply le_int; [lia|lra]]. }
  set (t3 := rnd (t2 * t2)) in *.
  destruct (mul64r _ _ F3 F0) as [F4 V4]; [rewrite V3, V0; apply (mod_small _ 361); [rewrite Rabs_right; nra|lra]|]. rewrite V3, V0 in V4.
  assert (B4 : n * n * t1 <= t3 * t0 <= 361 * / 2) by (split; apply Rmult_le_compat; nra).
  assert (Nt : 0 <= n * n * t1) by (apply Rmult_le_pos; nra).
  assert (E4 : Rabs (rnd (t3 * t0) - t3 * t0) <= ulp * 181 + et) by (apply rnd_abs; rewrite Rabs_right; lra).
  destruct (mul64r _ _ F5 F1) as [F6 V6]; [rewrite V5, V1; apply (mod_small _ 361); [rewrite Rabs_right; lra|lra]|]. rewrite V5, V1 in V6.
  assert (E6 : Rabs (rnd (n * n * t1) - n * n * t1) <= ulp * 181 + et) by (apply rnd_abs; rewrite Rabs_right; lra).
  assert (M6 : rnd (n * n * t1) <= rnd (t3 * t0)) by (apply rnd_mono; lra).
  assert (P6 : 0 <= rnd (n * n * t1)) by (apply ge_int; [lia|lra]).
  assert (P4 : rnd (t3 * t0) <= 181) by (apply le_int; [lia|lra]).
  set (t4 := rnd (t3 * t0)) in *. set (t6 := rnd (n * n * t1)) in *.
  destruct (sub64r _ _ F4 F6) as [F7 V7]; [rewrite V4, V6; apply (mod_small _ 361); [rewrite Rabs_right; lra|lra]|]. rewrite V4, V6 in V7.
  split; [exact F7|]. rewrite V7. split.
  { split; [apply ge_int|apply le_int]; try lia; lra. }
  assert (E7 : Rabs (rnd (t4 - t6) - (t4 - t6)) <= ulp * 181 + et) by (apply rnd_abs; rewrite Rabs_right; lra).
  set (x := rnd (t4 - t6)) in *.
  (* collecting the errors *)
  assert (EQ2 : Rabs (t2 * t2 - U * U) <= (20 * ulp + 2 * et) * 38).
  { replace (t2 * t2 - U * U) with ((t2 - U) * (t2 + U)) by ring. rewrite Rabs_mult. apply Rmult_le_compat; try apply Rabs_pos; assumption. }
  set (A := / (2 * val64 s ^ 2)) in *. set (C' := / (2 * val64 smax ^ 2)) in *. set (C := / (2 * (18205 / 10000) ^ 2)).
  assert (EC : Rabs (C' - C) <= 1 / 10000000000000000).
  { unfold C', C. set (v := val64 smax) in *. set (w := 18205 / 10000) in *. assert (HV : 18 / 10 <= v) by (unfold w in SM; lra). assert (HW : w = 18205 / 10000) by reflexivity. clearbody v w.
    replace (/ (2 * v ^ 2) - / (2 * w ^ 2)) with ((w - v) * ((w + v) * (/ (2 * v ^ 2) * / w ^ 2))) by (field; lra). rewrite Rabs_mult.
    assert (Rabs (w - v) <= 3 / 10000000000000000) by (apply Rabs_le; lra).
    assert (Y : 0 <= (w + v) * (/ (2 * v ^ 2) * / w ^ 2) <= 4 * (/ 6 * / 3)).
    { assert (0 < / (2 * v ^ 2) <= / 6) by (split; [apply Rinv_0_lt_compat|apply Rinv_le]; nra). assert (0 < / w ^ 2 <= / 3) by (split; [apply Rinv_0_lt_compat|apply Rinv_le]; nra).
      set (a1 := / (2 * v ^ 2)) in *. set (a2 := / w ^ 2) in *. clearbody a1 a2. assert (0 <= a1 * a2 <= / 6 * / 3) by (split; [apply Rmult_le_pos; lra|apply Rmult_le_compat; lra]).
      split; [apply Rmult_le_pos; lra|apply Rmult_le_compat; lra]. }
    rewrite (Rabs_right (_ * _)) by lra. pose proof (Rabs_pos (w - v)). set (g := (w + v) * _) in *. clearbody g. nra. }
  replace (U ^ 2 / (2 * val64 s ^ 2) - n ^ 2 / (2 * (18205 / 10000) ^ 2)) with (U * U * A - n * n * C) by (unfold A, C; field; lra).
  assert (EA : Rabs (t3 * t0 - U * U * A) <= (760 * ulp + 76 * et + (ulp * 361 + et)) * / 2 + 361 * (5 / 10000000000000000)).
  { replace (t3 * t0 - U * U * A) with (((t3 - t2 * t2) + (t2 * t2 - U * U)) * t0 + U * U * (t0 - A)) by ring. eapply Rle_trans; [apply Rabs_triang|]. rewrite !Rabs_mult. apply Rplus_le_compat.
    - rewrite (Rabs_right t0) by lra. apply Rmult_le_compat; [apply Rabs_pos|lra| |lra]. eapply Rle_trans; [apply Rabs_triang|]. lra.
    - apply Rmult_le_compat; [apply Rmult_le_pos; apply Rabs_pos|apply Rabs_pos| |exact J0]. rewrite <- Rabs_mult, Rabs_right by (apply Rle_ge, Rle_0_sqr). exact QU. }
  assert (EB : Rabs (n * n * t1 - n * n * C) <= 324 * (6 / 10000000000000000)).
  { replace (n * n * t1 - n * n * C) with (n * n * ((t1 - C') + (C' - C))) by ring. rewrite Rabs_mult. apply Rmult_le_compat; [apply Rabs_pos|apply Rabs_pos|rewrite Rabs_right; nra|].
    eapply Rle_trans; [apply Rabs_triang|]. lra. }
  apply Rinv_abs in E7. apply Rinv_abs in E6. apply Rinv_abs in E4. apply Rinv_abs in EA. apply Rinv_abs in EB. clear - E7 E6 E4 EA EB ET. apply Rabs_le.
  set (k1 := U * U * A) in *. set (k2 := n * n * C) in *. set (k3 := t3 * t0) in *. set (k4 := n * n * t1) in *. clearbody k1 k2 k3 k4 x t4 t6. unfold ulp in *. lra.
Qed.

(** ** samplerz *)
Lemma ccs_64 s sm : fin64 s -> fin64 sm -> 1 / 1000 <= val64 sm -> val64 sm <= val64 s -> 1 <= val64 s <= 18205 / 10000 ->
  fin64 (fdiv F64 sm s) /\ / 1048576 <= val64 (fdiv F64 sm s) <= 1 /\ Rabs (val64 (fdiv F64 sm s) - val64 sm / val64 s) <= ulp + et.
Proof.
  intros Fs Fm H1 H2 H3. cbn [fdiv F64]. set (a := val64 sm) in *. set (v := val64 s) in *.
  assert (I : / 2 <= / v <= 1). { split; [apply Rinv_le; lra|rewrite <- Rinv_1; apply Rinv_le; lra]. }
  assert (B : 1 / 2000 <= a / v <= 1).
  { unfold Rdiv. split; [replace (1 * / 2000) with (1 / 1000 * / 2) by field; apply Rmult_le_compat; lra|]. rewrite <- (Rinv_r v) by lra. apply Rmult_le_compat_r; lra. }
  destruct (div64r sm s Fm Fs) as [F1 V1]; [fold v; lra|fold a v; apply (mod_small _ 8); [rewrite Rabs_right; lra|simpl; lra]|]. fold a v in V1.
  split; [exact F1|]. rewrite V1. pose proof (rnd_abs (a / v) 1 ltac:(rewrite Rabs_right; lra)) as E. pose proof et_num.
  split; [split; [|apply le_int; [lia|lra]]|lra]. apply Rinv_abs in E. unfold ulp in *. lra.
Qed.
Lemma thr_64 mu s sm z0 b : fin64 mu -> fin64 s -> fin64 sm -> Rabs (val64 mu) <= 10000000000 -> 1 / 1000 <= val64 sm -> val64 sm <= val64 s ->
  1 <= val64 s <= 18205 / 10000 -> (z0 < 19)%nat -> b = 0%Z \/ b = 1%Z ->
  exists t, P_sampz.thr F64 mu s sm z0 b t /\
    Rabs (IZR t / 2 ^ 64 - val64 sm / val64 s * exp (- P_exact.xval (val64 mu) (val64 s) z0 b)) <= / 2 ^ 39 * exp (- P_exact.xval (val64 mu) (val64 s) z0 b) + / 2 ^ 63.
Proof.
  intros Fm Fs Fsm Hm H1 H2 H3 Hz Hb. unfold P_sampz.thr.
  destruct (exponent_64 mu s z0 b Fm Fs Hm H3 Hz Hb) as (FX & BX & EX). destruct (ccs_64 s sm Fs Fsm H1 H2 H3) as (FC & BC & EC).
  set (x := exponent F64 _ _ _ _ _) in *. set (ccs := fdiv F64 sm s) in *.
  destruct (threshold_64 x ccs FX FC BX BC) as (t & ET & A). exists t. split; [exact ET|]. replace (2 ^ 64) with w64 by (unfold P_exact.w64; lra).
  set (y := P_exact.xval _ _ _ _) in *. destruct (exp_near _ _ _ EX ltac:(lra)) as [N1 N2]. pose proof (exp_pos (- y)) as P1. pose proof (exp_pos (- val64 x)) as P2.
  set (e := exp (- val64 x)) in *. set (e' := exp (- y)) in *. set (c := val64 ccs) in *. set (c' := val64 sm / val64 s) in *.
  apply Rinv_abs in A. apply Rinv_abs in N1. apply Rinv_abs in EC. pose proof et_num as EN.
  assert (M : - (13 / 10000000000000 * e') <= c * e - c' * e' <= 13 / 10000000000000 * e').
  { replace (c * e - c' * e') with (c * (e - e') + (c - c') * e') by ring. set (d := e - e') in *. set (f := c - c') in *. clearbody d f. unfold ulp in *.
    assert (- (12 / 10000000000000 * e') <= c * d <= 12 / 10000000000000 * e') by (clear - N1 BC P1; split; nra). assert (- (1 / 1000000000000000 * e') <= f * e' <= 1 / 1000000000000000 * e') by (clear - EC EN P1; split; nra). lra. }
  set (q := IZR t / w64) in *. clearbody q e e' c c'. set (k1 := c * e) in *. set (k2 := c' * e') in *. clearbody k1 k2. clear - A M N1 P1. apply Rabs_le. simpl in *. lra.
Qed.
Definition th_64 (mu s sm : spec_float) (z0 : nat) (b : Z) : Z :=
  match ber_threshold F64 (exponent F64 (fsub F64 mu (ffloor F64 mu)) (inv_2sq F64 s) (inv_2sq F64 (sigma_max F64)) (Z.of_nat z0) b) (fdiv F64 sm s) with Ok t => t | _ => 0%Z end.
Lemma to_i32_64 z mu : fin64 mu -> (-18 <= z <= 19)%Z -> (Z.abs (Rfloor (val64 mu)) <= 2147483000)%Z ->
  to_i32 F64 (fadd F64 (fofz F64 z) (ffloor F64 mu)) = Ok (Rfloor (val64 mu) + z)%Z.
Proof.
  intros Fm Hz Hm. cbn [fadd fofz ffloor F64]. destruct (int64_ok z ltac:(lia)) as [F1 V1]. destruct (floor64 mu Fm) as [F2 V2].
  assert (B : Rabs (IZR (z + Rfloor (val64 mu))) <= 3000000000) by (rewrite <- abs_IZR; apply IZR_le; lia).
  destruct (add64r _ _ F1 F2) as [F3 V3]; rewrite ?V1, ?V2, <- ?plus_IZR in *.
  - apply (mod_small _ 3000000000); [exact B|simpl; lra].
  - rewrite rnd_int in V3 by lia. unfold to_i32. rewrite (trunc_range _ _ _ _ F3 V3) by lia. f_equal. lia.
Qed.
Lemma mu_bound v : (Z.abs (Rfloor v) <= 2147483000)%Z -> Rabs v <= 10000000000.
Proof. intros H. pose proof (P_exact.Rfloor_spec v) as G. assert (-2147483000 <= IZR (Rfloor v) <= 2147483000) by (split; apply IZR_le; lia). apply Rabs_le. lra. Qed.
Lemma samplerz_64 mu s sm : fin64 mu -> fin64 s -> fin64 sm -> (Z.abs (Rfloor (val64 mu)) <= 2147483000)%Z -> 1 / 1000 <= val64 sm -> val64 sm <= val64 s ->
  1 <= val64 s <= 18205 / 10000 ->
  exists th : nat -> Z -> Z,
    (forall z0 b, (z0 < 19)%nat -> (b = 0 \/ b = 1)%Z ->
       let x := (IZR (zsigned z0 b) - (val64 mu - IZR (Rfloor (val64 mu)))) ^ 2 / (2 * val64 s ^ 2) - INR z0 ^ 2 / (2 * (18205 / 10000) ^ 2) in
       0 <= x /\ Rabs (IZR (th z0 b) / 2 ^ 64 - val64 sm / val64 s * exp (- x)) <= / 2 ^ 39 * exp (- x) + / 2 ^ 63) /\
    forall fuel g pos v pos', (forall i, byte (g i)) ->
      (samplerz F64 fuel mu s sm g pos = Ok (v, pos') <->
       exists k z, (k <= fuel)%nat /\ rejection (fun z0 b t => t = th z0 b) g k pos z pos' /\ v = (Rfloor (val64 mu) + z)%Z).
Proof.
  intros Fm Fs Fsm H0 H1 H2 H3. pose proof (mu_bound _ H0) as Hm. exists (th_64 mu s sm).
  assert (TH : forall z0 b, (z0 < 19)%nat -> (b = 0 \/ b = 1)%Z -> P_sampz.thr F64 mu s sm z0 b (th_64 mu s sm z0 b)).
  { intros z0 b Hz Hb. destruct (thr_64 mu s sm z0 b Fm Fs Fsm Hm H1 H2 H3 Hz Hb) as (t & E & _). unfold P_sampz.thr, th_64 in *. rewrite E. reflexivity. }
  split.
  - intros z0 b Hz Hb. split; [apply (P_exact.xval_range (val64 mu) (val64 s) z0 b Hz Hb); lra|].
    destruct (thr_64 mu s sm z0 b Fm Fs Fsm Hm H1 H2 H3 Hz Hb) as (t & E & B). pose proof (TH z0 b Hz Hb) as E'.
    unfold P_sampz.thr in E, E'. rewrite E in E'. assert (X : th_64 mu s sm z0 b = t) by congruence. rewrite X. exact B.
  - intros fuel g pos v pos' Hg. rewrite P_sampz.samplerz_ok by exact Hg. split; intros (k & z & Hk & Hr & Ho); exists k, z; (split; [exact Hk|]).
    + destruct (P_sampz.rejection_bounds _ _ _ _ _ _ Hr) as [_ Hz]. rewrite to_i32_64 in Ho by assumption. split; [|congruence].
      apply P_exact.rejection_ext with (2 := Hr). intros z0 b t Hz0 Hb HT. pose proof (TH z0 b Hz0 Hb) as E. unfold P_sampz.thr in *. rewrite E in HT. congruence.
    + destruct (P_sampz.rejection_bounds _ _ _ _ _ _ Hr) as [_ Hz]. subst v. split; [|apply to_i32_64; assumption].
      apply P_exact.rejection_ext with (2 := Hr). intros z0 b t Hz0 Hb ->. apply TH; assumption.
Qed.
(** ** definedness, also when sigma_min exceeds sigma' a little *)
Lemma u63_def v : fin64 v -> 0 <= val64 v <= 19 / 10 -> exists z, to_u64 F64 (ffloor F64 (fmul F64 (fofz F64 9223372036854775808) v)) = Ok z.
Proof.
  intros Hf Hv. cbn [ffloor fmul fofz F64]. destruct w63_ok as [F1 V1].
  assert (B0 : 0 <= w63 * val64 v <= 19 / 10 * w63) by (unfold P_exp.w63; lra).
  destruct (mul64r _ v F1 Hf) as [F2 V2].
  { rewrite V1. apply big_ok. rewrite Rabs_right by lra. eapply Rle_trans; [apply B0|]. unfold P_exp.w63. simpl. lra. }
  rewrite V1 in V2. destruct (floor64 _ F2) as [F3 V3]. rewrite V2 in V3.
  exists (Rfloor (rnd (w63 * val64 v))). pose proof (P_exact.Rfloor_spec (rnd (w63 * val64 v))) as G.
  assert (R0 : 0 <= rnd (w63 * val64 v)) by (apply ge_int; [lia|lra]).
  pose proof (rnd_abs (w63 * val64 v) (19 / 10 * w63) ltac:(rewrite Rabs_right; lra)) as A. apply Rinv_abs in A. pose proof et_num.
  apply trunc_range; [exact F3|exact V3|]. split; [apply Z.lt_succ_r; apply lt_IZR; rewrite succ_IZR; lra|].
  apply lt_IZR. unfold ulp, P_exp.w63 in *. lra.
Qed.
Lemma exp_core_def z1 z2 : exists y, exp_core z1 z2 = Ok y.
Proof. eexists. reflexivity. Qed.
Lemma threshold_def x ccs : fin64 x -> fin64 ccs -> 0 <= val64 x <= 181 -> 0 <= val64 ccs <= 19 / 10 -> exists t, ber_threshold F64 x ccs = Ok t.
Proof.
  intros Fx Fc Hx Hc. assert (F1 : fin64 (sf_ofz 1) /\ val64 (sf_ofz 1) = 1) by (apply int64_ok; lia). destruct F1 as [F1 V1].
  destruct (threshold_64 x (sf_ofz 1) Fx F1 Hx ltac:(lra)) as (t & E & _). unfold ber_threshold, approx_exp in *.
  destruct (to_u64 F64 (ffloor F64 (fmul F64 x (INV_LN2 F64)))) as [s_| |]; cbn [bind] in *; try discriminate.
  destruct (to_u64 F64 (ffloor F64 (fmul F64 (fofz F64 9223372036854775808) (fsub F64 x (fmul F64 (ffloor F64 (fmul F64 x (INV_LN2 F64))) (LN2 F64)))))) as [z1| |]; cbn [bind] in *; try discriminate.
  destruct (u63_def ccs Fc Hc) as (z2 & E2). change (D F64) with spec_float in *. rewrite E2. cbn [bind]. destruct (exp_core_def z1 z2) as (y & ->). eexists. reflexivity.
Qed.
Lemma samplerz_64_no_ub mu s sm fuel g pos : fin64 mu -> fin64 s -> fin64 sm -> (Z.abs (Rfloor (val64 mu)) <= 2147483000)%Z -> 0 <= val64 sm -> val64 sm <= 18 / 10 * val64 s ->
  1 <= val64 s <= 18205 / 10000 -> (forall i, byte (g i)) -> samplerz F64 fuel mu s sm g pos <> UB.
Proof.
  intros Fm Fs Fsm H0 H1 H2 H3 Hg. pose proof (mu_bound _ H0) as Hm. unfold samplerz. revert pos. induction fuel as [|fuel IH]; intros pos; cbn [samplerz_loop]; [discriminate|].
  destruct (P_sampz.base_rng_ok g pos Hg) as (z0 & Hz0 & Hi & ->). cbn [bind]. rewrite P_sampz.land1.
  set (b := (g (pos + 9)%nat mod 2)%Z). assert (Hb : (b = 0 \/ b = 1)%Z) by (unfold b; pose proof (Z.mod_pos_bound (g (pos + 9)%nat) 2); lia).
  destruct (exponent_64 mu s z0 b Fm Fs Hm H3 Hz0 Hb) as (FX & BX & _).
  assert (C : fin64 (fdiv F64 sm s) /\ 0 <= val64 (fdiv F64 sm s) <= 19 / 10).
  { cbn [fdiv F64]. set (a := val64 sm) in *. set (v := val64 s) in *. assert (I : 0 < / v <= 1) by (split; [apply Rinv_0_lt_compat; lra|rewrite <- Rinv_1; apply Rinv_le; lra]).
    assert (B : 0 <= a / v <= 18 / 10). { unfold Rdiv. split; [apply Rmult_le_pos; lra|]. apply Rle_trans with (18 / 10 * v * / v); [apply Rmult_le_compat_r; lra|]. rewrite Rmult_assoc, Rinv_r by lra. lra. }
    destruct (div64r sm s Fsm Fs) as [F1 V1]; [fold v; lra|fold a v; apply (mod_small _ 8); [rewrite Rabs_right; lra|simpl; lra]|]. fold a v in V1.
    split; [exact F1|]. rewrite V1. split; [apply ge_int; [lia|lra]|]. pose proof (rnd_abs (a / v) 2 ltac:(rewrite Rabs_right; lra)) as E. apply Rinv_abs in E. pose proof et_num. unfold ulp in *. lra. }
  destruct C as [FC BC]. destruct (threshold_def _ _ FX FC BX BC) as (t & E).
  destruct (P_sampz.ber_exp_ok F64 _ _ g (S (pos + 9)) t Hg E) as (n & -> & _). cbn [bind]. rewrite <- (P_sampz.signed_eq z0 b Hb).
  destruct (_ =? 1)%Z; [|apply IH]. rewrite to_i32_64 by (try apply P_sampz.signed_range; assumption). discriminate.
Qed.
Lemma samplerz_64_near mu s sm fuel g pos v pos' : fin64 mu -> (Z.abs (Rfloor (val64 mu)) <= 2147483000)%Z -> (forall i, byte (g i)) ->
  samplerz F64 fuel mu s sm g pos = Ok (v, pos') -> Rabs (IZR v - val64 mu) <= 19.
Proof.
  intros Fm H0 Hg E. destruct (P_sampz.samplerz_range F64 _ _ _ _ _ _ _ _ Hg E) as (k & z & _ & _ & Hz & Ho). rewrite to_i32_64 in Ho by assumption.
  assert (X : v = (Rfloor (val64 mu) + z)%Z) by congruence. subst v. rewrite plus_IZR. pose proof (P_exact.Rfloor_spec (val64 mu)). assert (-18 <= IZR z <= 19) by (split; apply IZR_le; lia). apply Rabs_le. lra.
Qed.
Lemma threshold_64_pow x ccs : fin64 x -> fin64 ccs -> 0 <= val64 x <= 181 -> / 2 ^ 20 <= val64 ccs <= 1 ->
  exists t, ber_threshold F64 x ccs = Ok t /\ Rabs (IZR t / 2 ^ 64 - val64 ccs * exp (- val64 x)) <= / 2 ^ 43 * exp (- val64 x) + / 2 ^ 63.
Proof. intros Fx Fc Hx Hc. replace (2 ^ 64) with w64 by (unfold P_exact.w64; lra). apply threshold_64; [exact Fx|exact Fc|exact Hx|]. replace (/ 1048576) with (/ 2 ^ 20) by (simpl; lra). exact Hc. Qed.
Lemma samp_example : let mu := S754_finite true 8162774324609024 (-50) in let s := S754_finite false 6755399441055744 (-52) in
  let sm := flit F64 1277833697 9 in
  fin64 mu /\ fin64 s /\ fin64 sm /\ val64 mu = -29 / 4 /\ val64 s = 3 / 2 /\ (Z.abs (Rfloor (val64 mu)) <= 2147483000)%Z /\
  1 / 1000 <= val64 sm <= val64 s /\ val64 s <= 18205 / 10000 /\ samplerz F64 3 mu s sm (fun i => if Nat.ltb i 15 then 255 else Z.of_nat i)%Z 0 = Ok ((-11)%Z, 22%nat).
Proof.
  intros mu s sm. assert (E : sm = S754_finite false 5754851361650663 (-52)) by (vm_compute; reflexivity).
  assert (V1 : val64 mu = -29 / 4). { unfold mu. rewrite val_neg by reflexivity. change (IZR (2 ^ (- -50))) with 1125899906842624. lra. }
  assert (V2 : val64 s = 3 / 2). { unfold s. rewrite val_neg by reflexivity. change (IZR (2 ^ (- -52))) with 4503599627370496. lra. }
  assert (V3 : val64 sm = 5754851361650663 / 4503599627370496). { rewrite E, val_neg by reflexivity. change (IZR (2 ^ (- -52))) with 4503599627370496. lra. }
  split; [split; [reflexivity|exact I]|]. split; [split; [reflexivity|exact I]|]. split; [rewrite E; split; [reflexivity|exact I]|].
  split; [exact V1|]. split; [exact V2|]. split; [rewrite V1, (P_exact.Rfloor_eq _ (-8)) by lra; lia|]. rewrite V2, V3. split; [lra|]. split; [lra|]. vm_compute. reflexivity.
Qed.
