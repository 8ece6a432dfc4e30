(** P_iso.v -- the number of attempts of samplerz hardly depends on the centre and on the standard deviation. *)
From Verif Require Import Base Spec SpecR SpecF SpecG M_float M_exact M_ieee M_samp M_ntru P_ieee P_fsamp P_gauss P_prob P_dist P_dist64 P_gsum P_tot P_theta P_wide P_fsafe64.
From Verif Require P_exact P_sampz P_exp P_ftreek.
From Coq Require Import Reals Lra SpecFloat.
Open Scope R_scope.

(** ** the Gaussian sum divided by the standard deviation *)
Lemma ratio s s' a a' c c' G G' : 12778 / 10000 <= s <= 18205 / 10000 -> 12778 / 10000 <= s' <= 18205 / 10000 -> (0 < a)%nat -> (0 < a')%nat -> INR a' * s = INR a * s' ->
  gauss_sum s c G -> gauss_sum s' c' G' -> G / s * ((1 - / 2 ^ 38) * (1 - / 2 ^ 38)) <= G' / s' * ((1 + / 2 ^ 38) * (1 + / 2 ^ 38)).
Proof.
  intros Hs Hs' Ha Ha' ER HG HG'. apply th_gauss in HG; [|lra]. apply th_gauss in HG'; [|lra]. assert (Pa := lt_0_INR _ Ha). assert (Pa' := lt_0_INR _ Ha').
  set (k := / (2 * s ^ 2)) in *. set (k' := / (2 * s' ^ 2)) in *. set (K := k / INR a' ^ 2). 
  assert (Ek : k = K * INR a' ^ 2) by (unfold K; field; lra).
  assert (Ek' : k' = K * INR a ^ 2). { unfold k', K, k. assert (Es : s = INR a * s' / INR a') by (rewrite <- ER; field; lra). rewrite Es. field. lra. }
  set (f := fun z : Z => exp (- (K * (IZR z - 0) ^ 2))).
  destruct (fun_ex (fun j G => th k (- (INR j / INR a')) G) (fun j => has_wide s ltac:(lra) _) a') as [A HA].
  destruct (fun_ex (fun j G => th k' (- (INR j / INR a)) G) (fun j => has_wide s' ltac:(lra) _) a) as [B HB].
  assert (TA : tot f (rsum a' A)).
  { apply tot_mod; [lia|]. intros j Hj. specialize (HA j Hj). revert HA. unfold th. apply tot_ext. intros y. unfold f. f_equal. f_equal. rewrite plus_IZR, mult_IZR, <- !INR_IZR_INZ, Ek. field. lra. }
  assert (TB : tot f (rsum a B)).
  { apply tot_mod; [lia|]. intros j Hj. specialize (HB j Hj). revert HB. unfold th. apply tot_ext. intros y. unfold f. f_equal. f_equal. rewrite plus_IZR, mult_IZR, <- !INR_IZR_INZ, Ek'. field. lra. }
  assert (E := tot_unique _ _ _ TA TB). assert (E38 : 0 < / 2 ^ 38 <= / 2 ^ 10) by (split; [apply Rinv_0_lt_compat, pow_lt; lra|apply Rinv_le_contravar; [apply pow_lt; lra|apply Rle_pow; [lra|lia]]]). assert (E10 : / 2 ^ 10 = / 1024) by (f_equal; lra).
  set (e := / 2 ^ 38) in *.
  assert (G0 := th_pos _ _ _ HG). assert (G0' := th_pos _ _ _ HG').
  assert (U : INR a' * (G * (1 - e)) <= rsum a' A * (1 + e)).
  { rewrite (Rmult_comm (rsum a' A)), <- rsum_scal, <- rsum_const. apply rsum_le_all. intros j Hj. rewrite (Rmult_comm (1 + e)). apply (free_wide s ltac:(lra) _ _ _ _ HG (HA j Hj)). }
  assert (V : rsum a B * (1 - e) <= INR a * (G' * (1 + e))).
  { rewrite (Rmult_comm (rsum a B)), <- rsum_scal, <- rsum_const. apply rsum_le_all. intros j Hj. rewrite (Rmult_comm (1 - e)). apply (free_wide s' ltac:(lra) _ _ _ _ (HB j Hj) HG'). }
  rewrite <- E in V. set (S := rsum a' A) in *.
  assert (X : INR a' * (G * (1 - e)) * (1 - e) <= INR a * (G' * (1 + e)) * (1 + e)).
  { apply Rle_trans with (S * (1 + e) * (1 - e)); [apply Rmult_le_compat_r; lra|]. replace (S * (1 + e) * (1 - e)) with (S * (1 - e) * (1 + e)) by ring. apply Rmult_le_compat_r; lra. }
  apply Rmult_le_reg_l with (INR a' * s); [apply Rmult_lt_0_compat; lra|]. replace (INR a' * s * (G / s * ((1 - e) * (1 - e)))) with (INR a' * (G * (1 - e)) * (1 - e)) by (field; lra).
  rewrite ER. replace (INR a * s' * (G' / s' * ((1 + e) * (1 + e)))) with (INR a * (G' * (1 + e)) * (1 + e)) by (field; lra). exact X.
Qed.
(** two positive doubles have a common unit *)
Lemma pow2_up e e0 : (e0 <= e)%Z -> powerRZ 2 e = INR (Nat.pow 2 (Z.to_nat (e - e0))) * powerRZ 2 e0.
Proof.
  intros H. rewrite pow_INR. change (INR 2) with 2. rewrite pow_powerRZ, <- powerRZ_add by lra. f_equal. lia.
Qed.
Lemma unit64 x y : fin64 x -> fin64 y -> 0 < val64 x -> 0 < val64 y -> exists a b u, (0 < a)%nat /\ (0 < b)%nat /\ val64 x = INR a * u /\ val64 y = INR b * u.
Proof.
  intros Fx Fy Px Py.
  assert (K : forall z, fin64 z -> 0 < val64 z -> exists m e, val64 z = IZR (Zpos m) * powerRZ 2 e).
  { intros z Fz Pz. destruct z as [sg| sg| |sg m e]; cbn [val64] in Pz; try lra. exists m, e. cbn [val64]. destruct sg; [|ring]. exfalso. assert (0 < IZR (Zpos m)) by (apply IZR_lt; lia). assert (0 < powerRZ 2 e) by (apply powerRZ_lt; lra). assert (0 < IZR (Zpos m) * powerRZ 2 e) by (apply Rmult_lt_0_compat; assumption). lra. }
  destruct (K x Fx Px) as (m & e & ->). destruct (K y Fy Py) as (m' & e' & ->).
  exists (Pos.to_nat m * Nat.pow 2 (Z.to_nat (e - Z.min e e')))%nat, (Pos.to_nat m' * Nat.pow 2 (Z.to_nat (e' - Z.min e e')))%nat, (powerRZ 2 (Z.min e e')).
  assert (P2 : forall n, (0 < Nat.pow 2 n)%nat) by (intros n; assert (Nat.pow 2 n <> 0)%nat by (apply Nat.pow_nonzero; lia); lia).
  split; [assert (Q := P2 (Z.to_nat (e - Z.min e e'))); nia|]. split; [assert (Q := P2 (Z.to_nat (e' - Z.min e e'))); nia|].
  rewrite !mult_INR, !INR_IZR_INZ, !positive_nat_Z, <- !INR_IZR_INZ, !Rmult_assoc, <- !pow2_up by lia. split; reflexivity.
Qed.

(** ** the acceptance probability *)
Section Acc.
Variables c s m : R.
Hypotheses (Hm : 1 <= m) (Hms : m <= s) (Hs : s <= 18205 / 10000).
Notation fl := (Rfloor c).
Variable th : nat -> Z -> Z.
Hypothesis TR : forall z0 b, (z0 < 19)%nat -> (b = 0 \/ b = 1)%Z -> (0 <= th z0 b < 2 ^ 64)%Z.
Hypothesis TB : forall z0 b, (z0 < 19)%nat -> (b = 0 \/ b = 1)%Z ->
  let x := (IZR (zsigned z0 b) - (c - IZR fl)) ^ 2 / (2 * s ^ 2) - INR z0 ^ 2 / (2 * (18205 / 10000) ^ 2) in
  0 <= x /\ Rabs (IZR (th z0 b) / 2 ^ 64 - m / s * exp (- x)) <= / 2 ^ 39 * exp (- x) + / 2 ^ 63.
Notation rv v := (rho s c (IZR v)).
Variable S : R.
Hypothesis S1 : 1 <= S <= 3.
Hypothesis T0 : IZR (nth 0 pdt 0%Z) - 9 <= 2 ^ 72 * (rho SpecG.smax 0 0 / S) <= IZR (nth 0 pdt 0%Z).
Hypothesis T1 : forall k, (1 <= k < 19)%nat -> IZR (nth k pdt 0%Z) <= 2 ^ 72 * (rho SpecG.smax 0 (INR k) / S) < IZR (nth k pdt 0%Z) + 1.
Lemma pa_gauss : exists G, gauss_sum s c G /\ 0 < G /\ Rabs (pa th - m / (2 * S) * (G / s)) <= / 2 ^ 38 * (m / (2 * S) * (G / s)) + / 2 ^ 57.
Proof.
  destruct (dom_cv _ (left_dom c s m Hm Hms Hs)) as (Gm & C1 & L1 & U1). destruct (dom_cv _ (right_dom c s m Hm Hms Hs)) as (Gp & C2 & L2 & U2). exists (Gm + Gp).
  assert (GS : gauss_sum s c (Gm + Gp)) by (apply two_sides; assumption). split; [exact GS|]. split; [apply th_gauss in GS; [apply (th_pos _ _ _ GS)|lra]|].
  rewrite sum_rsum in L1, U1, L2, U2. set (W0 := rsum 19 (fun k => rv (fl - Z.of_nat k)%Z)) in *. set (W1 := rsum 19 (fun k => rv (fl + 1 + Z.of_nat k)%Z)) in *.
  assert (KR := KK_range s m Hm Hms Hs S S1). set (K := KK s m S) in *. assert (P38 : 0 < / 2 ^ 38) by (apply Rinv_0_lt_compat, pow_lt; lra).
  assert (Q0 : Rabs (rsum 19 (fun i => qq th i 0) - K * W0) <= / 2 ^ 38 * (K * W0) + 19 * / 2 ^ 63).
  { unfold W0. rewrite <- rsum_scal. replace (19 * / 2 ^ 63) with (INR 19 * / 2 ^ 63) by (f_equal; simpl; lra). apply rsum_abs. intros i Hi. assert (E := term_err c s m Hm Hms Hs th TR TB S S1 T0 T1 i 0 Hi ltac:(lia)). unfold zsigned in E. cbn [Z.eqb] in E. rewrite Z.add_opp_r in E. exact E. }
  assert (Q1 : Rabs (rsum 19 (fun i => qq th i 1) - K * W1) <= / 2 ^ 38 * (K * W1) + 19 * / 2 ^ 63).
  { unfold W1. rewrite <- rsum_scal. replace (19 * / 2 ^ 63) with (INR 19 * / 2 ^ 63) by (f_equal; simpl; lra). apply rsum_abs. intros i Hi. assert (E := term_err c s m Hm Hms Hs th TR TB S S1 T0 T1 i 1 Hi ltac:(lia)). unfold zsigned in E. cbn [Z.eqb Pos.eqb] in E. rewrite Z.add_assoc in E. exact E. }
  assert (N57 : 40 * / 2 ^ 63 <= / 2 ^ 57) by (simpl; lra). assert (N77 : 0 <= / 2 ^ 77 <= / 2 ^ 63) by (simpl; lra).
  replace (m / (2 * S) * ((Gm + Gp) / s)) with (K * (Gm + Gp)) by (unfold K, KK; field; lra).
  set (G := Gm + Gp) in *. set (d := / 2 ^ 38) in *. set (i63 := / 2 ^ 63) in *. set (i57 := / 2 ^ 57) in *. set (i77 := / 2 ^ 77) in *.
  assert (GW : W0 + W1 <= G <= W0 + W1 + 2 * i77) by (unfold G; lra).
  rewrite pa_qq. apply ab in Q0. apply ab in Q1. assert (KG : K * (W0 + W1) <= K * G <= K * (W0 + W1) + i77).
  { split; [apply Rmult_le_compat_l; lra|]. assert (K * G <= K * (W0 + W1 + 2 * i77)) by (apply Rmult_le_compat_l; lra). assert (K * (2 * i77) <= 1 / 2 * (2 * i77)) by (apply Rmult_le_compat_r; lra). lra. }
  assert (DG : d * (K * (W0 + W1)) <= d * (K * G)) by (apply Rmult_le_compat_l; lra). apply Rabs_le. lra.
Qed.
End Acc.

(** in binary64 *)
Definition par64 (sm mu s : spec_float) : Prop := fin64 mu /\ fin64 s /\ (Z.abs (Rfloor (val64 mu)) <= 2147483000)%Z /\ val64 sm <= val64 s /\ val64 s <= 18205 / 10000.
Lemma acc64 sm : fin64 sm -> 12778 / 10000 <= val64 sm -> exists K, 0 < K /\ forall mu s, par64 sm mu s -> exists a G,
  1 / 12 <= a <= 1 /\ gauss_sum (val64 s) (val64 mu) G /\ 0 < G /\ Rabs (a - K * (G / val64 s)) <= / 2 ^ 38 * (K * (G / val64 s)) + / 2 ^ 57 /\
  forall k n, (18 * k <= n)%nat -> prob n (fun w => ends (samplerz F64 k mu s sm (stream w) 0)) = 1 - (1 - a) ^ k.
Proof.
  intros Fsm H1. destruct table_gauss as (S & _ & S1 & T0 & T1). exists (val64 sm / (2 * S)). split; [apply Rmult_lt_0_compat; [lra|apply Rinv_0_lt_compat; lra]|].
  intros mu s (Fm & Fs & H0 & H2 & H3). pose proof (mu_bound _ H0) as Hm. assert (H1' : 1 / 1000 <= val64 sm) by lra. assert (H3' : 1 <= val64 s <= 18205 / 10000) by lra.
  assert (TH : forall z0 b, (z0 < 19)%nat -> (b = 0 \/ b = 1)%Z -> P_sampz.thr F64 mu s sm z0 b (th_64 mu s sm z0 b)).
  { intros z0 b Hz Hb. destruct (thr_64 mu s sm z0 b Fm Fs Fsm Hm H1' H2 H3' Hz Hb) as (t & E & _). unfold P_sampz.thr, th_64 in *. rewrite E. reflexivity. }
  assert (TO : forall z, (-18 <= z <= 19)%Z -> to_i32 F64 (fadd F64 (fofz F64 z) (ffloor F64 mu)) = Ok (Rfloor (val64 mu) + z)%Z) by (intros z Hz; apply to_i32_64; assumption).
  assert (TR : forall z0 b, (z0 < 19)%nat -> (b = 0 \/ b = 1)%Z -> (0 <= th_64 mu s sm z0 b < 2 ^ 64)%Z) by (intros z0 b Hz Hb; apply (P_prob.th_range F64 mu s sm _ TH z0 b Hz Hb)).
  assert (TB : forall z0 b, (z0 < 19)%nat -> (b = 0 \/ b = 1)%Z ->
    let x := (IZR (zsigned z0 b) - (val64 mu - IZR (Rfloor (val64 mu)))) ^ 2 / (2 * val64 s ^ 2) - INR z0 ^ 2 / (2 * (18205 / 10000) ^ 2) in
    0 <= x /\ Rabs (IZR (th_64 mu s sm z0 b) / 2 ^ 64 - val64 sm / val64 s * exp (- x)) <= / 2 ^ 39 * exp (- x) + / 2 ^ 63).
  { intros z0 b Hz Hb. split; [apply (P_exact.xval_range (val64 mu) (val64 s) z0 b Hz Hb); lra|].
    destruct (thr_64 mu s sm z0 b Fm Fs Fsm Hm H1' H2 H3' Hz Hb) as (t & E & B). pose proof (TH z0 b Hz Hb) as E'.
    unfold P_sampz.thr in E, E'. rewrite E in E'. assert (X : th_64 mu s sm z0 b = t) by congruence. rewrite X. exact B. }
  destruct (dist_all (val64 mu) (val64 s) (val64 sm) ltac:(lra) H2 H3 (th_64 mu s sm) TR TB) as (_ & _ & _ & _ & PA & _).
  destruct (pa_gauss (val64 mu) (val64 s) (val64 sm) ltac:(lra) H2 H3 (th_64 mu s sm) TR TB S S1 T0 T1) as (G & HG & G0 & B).
  exists (pa (th_64 mu s sm)), G. split; [exact PA|]. split; [exact HG|]. split; [exact G0|]. split; [exact B|]. intros k n Hn. apply (ends_prob F64 mu s sm _ _ TH TO k n Hn).
Qed.
Lemma near_arith d i a a' x x' : 0 < d <= 1 / 100000000 -> 0 < i <= d / 100000 -> a <= 1 -> a' <= 1 -> 0 < x -> 0 < x' -> Rabs (a - x) <= d * x + i -> Rabs (a' - x') <= d * x' + i ->
  x * ((1 - d) * (1 - d)) <= x' * ((1 + d) * (1 + d)) -> a - a' <= 8 * d.
Proof.
  intros Hd Hi Ha Ha' Hx Hx' E E' K. apply ab in E. apply ab in E'. assert (Dx : d * x <= 1 / 100000000 * x) by (apply Rmult_le_compat_r; lra). assert (Dx' : d * x' <= 1 / 100000000 * x') by (apply Rmult_le_compat_r; lra).
  assert (X1 : x <= 101 / 100) by lra. assert (X1' : x' <= 101 / 100) by lra. assert (D1 : d * x <= d * (101 / 100)) by (apply Rmult_le_compat_l; lra). assert (D1' : d * x' <= d * (101 / 100)) by (apply Rmult_le_compat_l; lra).
  assert (DD : 0 < d * d <= d * (1 / 100000000)) by (split; [apply Rmult_lt_0_compat; lra|apply Rmult_le_compat_l; lra]).
  assert (X2 : d * d * x' <= d * (1 / 100000000) * x') by (apply Rmult_le_compat_r; lra). assert (X3 : 0 < d * d * x) by (apply Rmult_lt_0_compat; lra).
  replace (x * ((1 - d) * (1 - d))) with (x - 2 * (d * x) + d * d * x) in K by ring. replace (x' * ((1 + d) * (1 + d))) with (x' + 2 * (d * x') + d * d * x') in K by ring.
  replace (d * (1 / 100000000) * x') with (1 / 100000000 * (d * x')) in X2 by ring. lra.
Qed.
Lemma acc_near sm : fin64 sm -> 12778 / 10000 <= val64 sm <= 18205 / 10000 -> exists a0, 1 / 12 <= a0 <= 1 /\ forall mu s, par64 sm mu s -> exists a, 1 / 12 <= a <= 1 /\ Rabs (a - a0) <= / 2 ^ 35 /\
  forall k n, (18 * k <= n)%nat -> prob n (fun w => ends (samplerz F64 k mu s sm (stream w) 0)) = 1 - (1 - a) ^ k.
Proof.
  intros Fsm [H1 H2]. destruct (acc64 sm Fsm H1) as (K & K0 & H).
  assert (E0 : val64 (S754_zero false) = 0) by reflexivity.
  assert (P0 : par64 sm (S754_zero false) sm). { split; [split; reflexivity|]. split; [exact Fsm|]. split; [|lra]. rewrite E0. assert (Q := P_exact.Rfloor_spec 0). destruct Q as [Q1 Q2]. set (f := Rfloor 0) in *. assert (IZR f < 1 /\ -1 < IZR f) as [Q3 Q4] by lra. apply lt_IZR in Q3, Q4. lia. }
  destruct (H _ _ P0) as (a0 & G0 & A0 & HG0 & PG0 & B0 & _). exists a0. split; [exact A0|]. intros mu s PS. destruct (H mu s PS) as (a & G & A & HG & PG & B & HP). exists a. split; [exact A|]. split; [|exact HP].
  destruct PS as (Fm & Fs & _ & Hsm & Hs). destruct (unit64 s sm Fs Fsm ltac:(lra) ltac:(lra)) as (b & b' & u & Hb & Hb' & Es & Esm).
  assert (R1 := ratio (val64 s) (val64 sm) b b' _ _ G G0 ltac:(lra) ltac:(lra) Hb Hb' ltac:(rewrite Es, Esm; ring) HG HG0).
  assert (R2 := ratio (val64 sm) (val64 s) b' b _ _ G0 G ltac:(lra) ltac:(lra) Hb' Hb ltac:(rewrite Es, Esm; ring) HG0 HG).
  assert (Q : 0 < G / val64 s) by (apply Rmult_lt_0_compat; [lra|apply Rinv_0_lt_compat; lra]). assert (Q0 : 0 < G0 / val64 sm) by (apply Rmult_lt_0_compat; [lra|apply Rinv_0_lt_compat; lra]).
  assert (E35 : / 2 ^ 35 = 8 * / 2 ^ 38) by (simpl; field). assert (N38 : 0 < / 2 ^ 38 <= 1 / 100000000) by (simpl; lra). assert (N57 : 0 < / 2 ^ 57 <= / 2 ^ 38 / 100000) by (simpl; lra).
  assert (X : 0 < K * (G / val64 s)) by (apply Rmult_lt_0_compat; assumption). assert (X0 : 0 < K * (G0 / val64 sm)) by (apply Rmult_lt_0_compat; assumption).
  rewrite E35. apply Rabs_le. split.
  - enough (a0 - a <= 8 * / 2 ^ 38) by lra. apply (near_arith _ (/ 2 ^ 57) a0 a (K * (G0 / val64 sm)) (K * (G / val64 s))); try assumption; try lra. rewrite !Rmult_assoc. apply Rmult_le_compat_l; [lra|exact R2].
  - apply (near_arith _ (/ 2 ^ 57) a a0 (K * (G / val64 s)) (K * (G0 / val64 sm))); try assumption; try lra. rewrite !Rmult_assoc. apply Rmult_le_compat_l; [lra|exact R1].
Qed.

(** ** geometric laws *)
Lemma pow_near c x y k : 0 <= x <= c -> 0 <= y <= c -> Rabs (x ^ S k - y ^ S k) <= INR (S k) * c ^ k * Rabs (x - y).
Proof.
  intros Hx Hy. induction k as [|k IH]; [simpl; rewrite !Rmult_1_r, Rmult_1_l; lra|].
  replace (x ^ S (S k) - y ^ S (S k)) with (x * (x ^ S k - y ^ S k) + y ^ S k * (x - y)) by (simpl; ring). eapply Rle_trans; [apply Rabs_triang|]. rewrite !Rabs_mult, (Rabs_pos_eq x), (Rabs_pos_eq (y ^ S k)) by (try apply pow_le; lra).
  assert (Y : y ^ S k <= c ^ S k) by (apply pow_incr; lra). assert (D := Rabs_pos (x - y)). set (d := Rabs (x - y)) in *. assert (C := pow_le c k ltac:(lra)). assert (I := pos_INR (S k)).
  assert (A1 : x * Rabs (x ^ S k - y ^ S k) <= c * (INR (S k) * c ^ k * d)) by (apply Rmult_le_compat; [lra|apply Rabs_pos|lra|exact IH]).
  assert (A2 : y ^ S k * d <= c ^ S k * d) by (apply Rmult_le_compat_r; assumption).
  rewrite (S_INR (S k)). replace ((INR (S k) + 1) * c ^ S k * d) with (c * (INR (S k) * c ^ k * d) + c ^ S k * d) by (simpl pow; ring). lra.
Qed.
Lemma sum_kc m : rsum m (fun k => INR (S k) * (11 / 12) ^ k) = 144 * (1 - (11 / 12) ^ m * (1 + INR m / 12)).
Proof. induction m as [|m IH]; [simpl; field|]. cbn [rsum]. rewrite IH, !S_INR. simpl pow. field. Qed.
Lemma pow_close a b k : 1 / 12 <= a <= 1 -> 1 / 12 <= b <= 1 -> Rabs ((1 - a) ^ k - (1 - b) ^ k) <= 12 * Rabs (a - b).
Proof.
  intros Ha Hb. assert (D := Rabs_pos (a - b)). destruct k as [|k]; [simpl; rewrite Rminus_diag_eq, Rabs_R0 by reflexivity; lra|].
  eapply Rle_trans; [apply (pow_near (11 / 12)); lra|]. replace (1 - a - (1 - b)) with (- (a - b)) by ring. rewrite Rabs_Ropp. apply Rmult_le_compat_r; [exact D|].
  (* (k+1) c^k <= sum of c^j, j <= k, <= 12 *)
  assert (K : forall k, INR (S k) * (11 / 12) ^ k <= 12 * (1 - (11 / 12) ^ S k)).
  { clear. induction k as [|k IH]; [simpl; lra|]. rewrite (S_INR (S k)). replace ((INR (S k) + 1) * (11 / 12) ^ S k) with (11 / 12 * (INR (S k) * (11 / 12) ^ k) + (11 / 12) ^ S k) by (simpl pow; ring).
    replace (12 * (1 - (11 / 12) ^ S (S k))) with (12 - 11 * (11 / 12) ^ S k) by (simpl pow; field). assert ((11 / 12) ^ S k <= 1) by (rewrite <- (pow1 (S k)); apply pow_incr; lra). lra. }
  eapply Rle_trans; [apply K|]. assert (0 <= (11 / 12) ^ S k) by (apply pow_le; lra). lra.
Qed.
Definition kc (k : nat) : R := match k with O => 0 | S j => INR (S j) * (11 / 12) ^ j end.
Lemma sum_kc' m : rsum m kc <= 144.
Proof.
  destruct m as [|m]; [cbn; lra|]. rewrite rsum_S_l. cbn [kc]. rewrite sum_kc. assert (0 <= (11 / 12) ^ m) by (apply pow_le; lra). assert (I := pos_INR m).
  assert (0 <= (11 / 12) ^ m * (1 + INR m / 12)) by (apply Rmult_le_pos; lra). lra.
Qed.
Lemma sum_c m : rsum m (fun k => (11 / 12) ^ k) <= 12.
Proof. assert (G := geom (1 / 12) m). replace (1 - 1 / 12) with (11 / 12) in G by field. assert (0 <= (11 / 12) ^ m) by (apply pow_le; lra). lra. Qed.
Lemma geo_tv a b m : 1 / 12 <= a <= 1 -> 1 / 12 <= b <= 1 -> rsum m (fun k => Rabs (a * (1 - a) ^ k - b * (1 - b) ^ k)) <= 156 * Rabs (a - b).
Proof.
  intros Ha Hb. assert (D := Rabs_pos (a - b)). set (d := Rabs (a - b)) in *.
  apply Rle_trans with (rsum m (fun k => d * (11 / 12) ^ k) + rsum m (fun k => d * kc k)).
  - rewrite <- rsum_plus. apply rsum_le_all. intros k _. replace (a * (1 - a) ^ k - b * (1 - b) ^ k) with ((a - b) * (1 - a) ^ k + b * ((1 - a) ^ k - (1 - b) ^ k)) by ring.
    eapply Rle_trans; [apply Rabs_triang|]. rewrite !Rabs_mult, (Rabs_pos_eq b), (Rabs_pos_eq ((1 - a) ^ k)) by (try apply pow_le; lra). fold d. apply Rplus_le_compat; [apply Rmult_le_compat_l; [exact D|apply pow_incr; lra]|].
    destruct k as [|k]; [cbn [kc pow]; rewrite Rminus_diag_eq, Rabs_R0 by reflexivity; lra|].
    assert (P := pow_near (11 / 12) (1 - a) (1 - b) k ltac:(lra) ltac:(lra)). replace (1 - a - (1 - b)) with (- (a - b)) in P by ring. rewrite Rabs_Ropp in P. fold d in P.
    assert (Q := Rabs_pos ((1 - a) ^ S k - (1 - b) ^ S k)). apply Rle_trans with (1 * Rabs ((1 - a) ^ S k - (1 - b) ^ S k)); [apply Rmult_le_compat_r; lra|]. rewrite Rmult_1_l.
    eapply Rle_trans; [exact P|]. cbn [kc]. lra.
  - rewrite !rsum_scal. change (fun i => kc i) with kc. assert (A1 := sum_c m). change (fun k => (11 / 12) ^ k) with (pow (11 / 12)) in A1. assert (A2 := sum_kc' m).
    assert (d * rsum m (pow (11 / 12)) <= d * 12) by (apply Rmult_le_compat_l; assumption). assert (d * rsum m kc <= d * 144) by (apply Rmult_le_compat_l; assumption). lra.
Qed.

(** ** the law of the number of attempts *)
Section Mono.
Variable F : fops.
Lemma loop_mono k mu r ccs t0 g pos : ends (samplerz_loop F k mu r ccs t0 g pos) = true -> ends (samplerz_loop F (S k) mu r ccs t0 g pos) = true.
Proof.
  revert pos. induction k as [|k IH]; intros pos H; [discriminate H|]. remember (S k) as k1 eqn:Ek. cbn [samplerz_loop]. rewrite Ek in H. cbn [samplerz_loop] in H.
  destruct (base_sampler_rng g pos) as [[z0 p]| |]; cbn [bind] in *; [|exact H|exact H]. destruct (ber_exp _ _ _ _ _) as [[t7 p7]| |]; cbn [bind] in *; [|exact H|exact H].
  destruct (t7 =? 1)%Z; [exact H|]. apply IH. exact H.
Qed.
End Mono.
Lemma prob_step n (A B : list Z -> bool) : (forall w, B w = true -> A w = true) -> prob n (fun w => A w && negb (B w)) = prob n A - prob n B.
Proof.
  intros H. rewrite !prob_avg. enough (avg n (fun s => P_prob.ind (A s)) = avg n (fun s => P_prob.ind (A s && negb (B s))) + avg n (fun s => P_prob.ind (B s))) by lra.
  rewrite <- avg_plus. apply avg_ext. intros w _ _. specialize (H w). destruct (B w); [rewrite H by reflexivity|destruct (A w)]; cbn; lra.
Qed.
Lemma attempts sm : fin64 sm -> 12778 / 10000 <= val64 sm <= 18205 / 10000 -> exists a0, 1 / 12 <= a0 <= 1 /\ forall mu s, par64 sm mu s ->
  (forall k n, (18 * k <= n)%nat -> Rabs (prob n (fun w => ends (samplerz F64 k mu s sm (stream w) 0)) - (1 - (1 - a0) ^ k)) <= / 2 ^ 31) /\
  forall m n, (18 * S m <= n)%nat -> sum_f_R0 (fun k => Rabs (prob n (fun w => ends (samplerz F64 (S k) mu s sm (stream w) 0) && negb (ends (samplerz F64 k mu s sm (stream w) 0))) - a0 * (1 - a0) ^ k)) m <= / 2 ^ 27.
Proof.
  intros Fsm Hsm. destruct (acc_near sm Fsm Hsm) as (a0 & A0 & H). exists a0. split; [exact A0|]. intros mu s PS. destruct (H mu s PS) as (a & A & D & HP).
  assert (E35 : 0 < / 2 ^ 35) by (apply Rinv_0_lt_compat, pow_lt; lra). split.
  - intros k n Hn. rewrite HP by exact Hn. replace (1 - (1 - a) ^ k - (1 - (1 - a0) ^ k)) with (- ((1 - a) ^ k - (1 - a0) ^ k)) by ring. rewrite Rabs_Ropp. eapply Rle_trans; [apply pow_close; assumption|].
    replace (/ 2 ^ 31) with (16 * / 2 ^ 35) by (simpl; field). lra.
  - intros m n Hn. rewrite sum_rsum. rewrite (rsum_ext _ _ (fun k => Rabs (a * (1 - a) ^ k - a0 * (1 - a0) ^ k))).
    + eapply Rle_trans; [apply geo_tv; assumption|]. replace (/ 2 ^ 27) with (256 * / 2 ^ 35) by (simpl; field). lra.
    + intros k Hk. f_equal. f_equal. rewrite prob_step; [|intros w; apply (loop_mono F64)]. rewrite !HP by lia. simpl pow. ring.
Qed.
Lemma smin_lo lg : falcon_lg lg -> fin64 (sigma_min F64 lg) /\ 12778 / 10000 <= val64 (sigma_min F64 lg) <= 18205 / 10000.
Proof.
  intros [->| ->]; unfold sigma_min; cbn [Nat.eqb].
  - destruct (P_ftreek.lit9 F64 fin64 val64 accurate64 1277833697 ltac:(lia)) as [F1 E]. split; [exact F1|]. destruct (P_abs _ _ E) as [G1 G2]. lra.
  - destruct (P_ftreek.lit9 F64 fin64 val64 accurate64 1298280334 ltac:(lia)) as [F1 E]. split; [exact F1|]. destruct (P_abs _ _ E) as [G1 G2]. lra.
Qed.
Lemma attempts_lg lg : falcon_lg lg -> exists a, 1 / 12 <= a <= 1 /\ forall mu s : spec_float,
  fin64 mu -> fin64 s -> (Z.abs (Rfloor (val64 mu)) <= 2147483000)%Z -> val64 (sigma_min F64 lg) <= val64 s -> val64 s <= 18205 / 10000 ->
  (forall k n, (18 * k <= n)%nat -> Rabs (prob n (fun w => ends (samplerz F64 k mu s (sigma_min F64 lg) (stream w) 0)) - (1 - (1 - a) ^ k)) <= / 2 ^ 31) /\
  forall m n, (18 * S m <= n)%nat ->
    sum_f_R0 (fun k => Rabs (prob n (fun w => ends (samplerz F64 (S k) mu s (sigma_min F64 lg) (stream w) 0) && negb (ends (samplerz F64 k mu s (sigma_min F64 lg) (stream w) 0))) - a * (1 - a) ^ k)) m <= / 2 ^ 27.
Proof.
  intros Hlg. destruct (smin_lo lg Hlg) as [F B]. destruct (attempts _ F B) as (a & A & H). exists a. split; [exact A|]. intros mu s Fm Fs Hm H1 H2. apply (H mu s). repeat (split; [assumption|]). assumption.
Qed.

(** two pairs (centre, deviation), and a string on which the second attempt is the one that ends *)
Lemma iso_example : let mu := S754_finite true 8162774324609024 (-50) in let s := S754_finite false 6755399441055744 (-52) in
  let mu' := S754_finite false 4503599627370496 (-53) in let s' := S754_finite false 7881299347898368 (-52) in
  let sm := sigma_min F64 9 in let w := (repeat 255 15 ++ [15; 16; 17; 18; 19; 20; 21; 22])%Z in
  (fin64 mu /\ fin64 s /\ val64 mu = -29 / 4 /\ val64 s = 3 / 2 /\ (Z.abs (Rfloor (val64 mu)) <= 2147483000)%Z /\ val64 sm <= val64 s /\ val64 s <= 18205 / 10000) /\
  (fin64 mu' /\ fin64 s' /\ val64 mu' = 1 / 2 /\ val64 s' = 7 / 4 /\ (Z.abs (Rfloor (val64 mu')) <= 2147483000)%Z /\ val64 sm <= val64 s' /\ val64 s' <= 18205 / 10000) /\
  ends (samplerz F64 2 mu s sm (stream w) 0) && negb (ends (samplerz F64 1 mu s sm (stream w) 0)) = true.
Proof.
  intros mu s mu' s' sm w. destruct samp_example as (H1 & H2 & _ & H4 & H5 & H6 & [_ H7] & H8 & _). change (flit F64 1277833697 9) with sm in H7. fold mu in H1, H4, H6. fold s in H2, H5, H7, H8.
  split; [repeat (split; [assumption|]); assumption|].
  assert (E1 : val64 mu' = 1 / 2) by (unfold mu'; rewrite val_neg by reflexivity; change (IZR (2 ^ (- -53))) with 9007199254740992; lra).
  assert (E2 : val64 s' = 7 / 4) by (unfold s'; rewrite val_neg by reflexivity; change (IZR (2 ^ (- -52))) with 4503599627370496; lra).
  split; [|vm_compute; reflexivity]. split; [split; [vm_compute; reflexivity|exact I]|]. split; [split; [vm_compute; reflexivity|exact I]|]. split; [exact E1|]. split; [exact E2|]. split; [|rewrite E2; rewrite H5 in H7; lra].
  rewrite E1. destruct (P_exact.Rfloor_spec (1 / 2)) as [Q1 Q2]. set (f := Rfloor (1 / 2)) in *. assert (IZR f < 1 /\ -1 < IZR f) as [Q3 Q4] by lra. apply lt_IZR in Q3, Q4. lia.
Qed.
