(** P_exp.v -- approx_exp's polynomial against the exponential function. *)
From Verif Require Import Base Spec M_float M_exact M_samp P_ff P_xform P_codec P_samp.
From Coq Require Import Reals Lra Psatz.
Open Scope R_scope.

Lemma Rabs_le_inv x e : Rabs x <= e -> - e <= x <= e.
Proof. unfold Rabs. destruct (Rcase_abs x); lra. Qed.

(** ** integer polynomials evaluated at reals *)
Definition pev (a : list Z) (y : R) : R := fold_right (fun c v => IZR c + y * v) 0 a.
Fixpoint zadd (a b : list Z) : list Z :=
  match a, b with [], _ => b | _, [] => a | x :: a', y :: b' => (x + y)%Z :: zadd a' b' end.
Definition mulc (c : Z) (q : list Z) : list Z := zadd (map (Z.mul c) q) (0%Z :: q).
Definition shift (c : Z) (a : list Z) : list Z := fold_right (fun x acc => zadd [x] (mulc c acc)) [] a.
Definition sumabs (a : list Z) : Z := fold_right (fun c v => (Z.abs c + v)%Z) 0%Z a.

Lemma pev_zadd a b y : pev (zadd a b) y = pev a y + pev b y.
Proof. revert b. induction a as [|x a IH]; intros [|x' b]; cbn; try ring. fold (pev (zadd a b) y). rewrite IH, plus_IZR. unfold pev. ring. Qed.
Lemma pev_map c a y : pev (map (Z.mul c) a) y = IZR c * pev a y.
Proof. induction a as [|x a IH]; cbn; [ring|]. fold (pev (map (Z.mul c) a) y). rewrite IH, mult_IZR. unfold pev. ring. Qed.
Lemma pev_shift c a h : pev (shift c a) h = pev a (IZR c + h).
Proof.
  induction a as [|x a IH]; [reflexivity|]. cbn [shift fold_right]. fold (shift c a). rewrite pev_zadd. unfold mulc. rewrite pev_zadd, pev_map.
  replace (pev (0%Z :: shift c a) h) with (h * pev (shift c a) h) by (unfold pev; cbn; ring). rewrite IH. unfold pev. cbn. ring.
Qed.
Lemma pev_bound a h : Rabs h <= 1 -> Rabs (pev a h) <= IZR (sumabs a).
Proof.
  intros H. induction a as [|x a IH]; cbn; [rewrite Rabs_R0; lra|]. fold (pev a h). fold (sumabs a). rewrite plus_IZR, abs_IZR.
  eapply Rle_trans; [apply Rabs_triang|]. apply Rplus_le_compat_l. rewrite Rabs_mult.
  pose proof (Rabs_pos h). pose proof (Rabs_pos (pev a h)). nra.
Qed.
Lemma cover n y : 0 <= y <= 2 * INR n -> n <> 0%nat -> exists i, (i < n)%nat /\ Rabs (y - (2 * INR i + 1)) <= 1.
Proof.
  induction n as [|n IH]; intros H N; [congruence|]. rewrite S_INR in H. destruct (Rle_lt_dec y (2 * INR n)) as [C|C].
  - destruct n as [|n'].
    + exists 0%nat. split; [lia|]. cbn in *. apply Rabs_le. lra.
    + destruct IH as (i & Hi & E); [lra|lia|]. exists i. split; [lia|exact E].
  - exists n. split; [lia|]. apply Rabs_le. lra.
Qed.
Lemma poly_bound a n B y : (0 < n)%nat -> alln n (fun i => (sumabs (shift (2 * Z.of_nat i + 1) a) <=? B)%Z) = true ->
  0 <= y <= 2 * INR n -> Rabs (pev a y) <= IZR B.
Proof.
  intros Hn H Hy. destruct (cover n y Hy) as (i & Hi & E); [lia|]. pose proof (alln_spec _ _ H i Hi) as HB. cbv beta in HB. apply Z.leb_le in HB.
  replace y with (IZR (2 * Z.of_nat i + 1) + (y - (2 * INR i + 1))) by (rewrite plus_IZR, mult_IZR, <- INR_IZR_INZ; ring).
  rewrite <- pev_shift. eapply Rle_trans; [apply pev_bound; exact E|]. apply IZR_le. exact HB.
Qed.

(** ** the exponential series *)
Definition eterm (x : R) (i : nat) : R := x ^ i / INR (fact i).
Lemma eterm_S x i : eterm x (S i) = eterm x i * x / INR (S i).
Proof.
  unfold eterm. rewrite fact_simpl, mult_INR. cbn [pow]. field. split; [apply INR_fact_neq_0|apply not_0_INR; lia].
Qed.
Lemma eterm_pos x i : 0 <= x -> 0 <= eterm x i.
Proof. intros H. unfold eterm. apply Rmult_le_pos; [apply pow_le; exact H|]. left. apply Rinv_0_lt_compat, INR_fact_lt_0. Qed.
Lemma exp_alt N x : 0 <= x <= 1 -> sum_f_R0 (tg_alt (eterm x)) (S (2 * N)) <= exp (- x) <= sum_f_R0 (tg_alt (eterm x)) (2 * N).
Proof.
  intros H. apply alternated_series_ineq.
  - intros i. rewrite eterm_S. pose proof (eterm_pos x i (proj1 H)). assert (1 <= INR (S i)) by (rewrite S_INR; pose proof (pos_INR i); lra).
    assert (x / INR (S i) <= 1). { apply Rmult_le_reg_r with (INR (S i)); [lra|]. field_simplify; lra. }
    unfold Rdiv in *. rewrite Rmult_assoc. nra.
  - apply (cv_speed_pow_fact x).
  - unfold exp. destruct (exist_exp (- x)) as (l & Hl). cbn [proj1_sig]. unfold exp_in, infinite_sum in Hl.
    intros eps He. destruct (Hl eps He) as (n0 & Hn). exists n0. intros n Hnn. specialize (Hn n Hnn).
    rewrite (sum_eq (tg_alt (eterm x)) (fun i => / INR (fact i) * (- x) ^ i)); [exact Hn|].
    intros i _. unfold tg_alt, eterm, Rdiv. replace (- x) with (-1 * x) by ring. rewrite Rpow_mult_distr. ring.
Qed.

Definition qA : list Z :=
  [ 0;
    26271097660607083208742004812679900370826864998827564204032000;
    385945982955589792383862672604757367879844399184542171136000;
    -24909556315780959230037620297853034824419223296809107456000;
    -170530512266767500869338669996573895949412190115594240000;
    6626307355458229861032801461650138452386624123908915200;
    24208159779011654484696566668305037974776893459660800;
    -746823130019566032507514883116016274073218082406400;
    -1461187168695126445710017931429791778215244595200;
    40594651681533524188967323182269917926575308800;
    37215012881021035132892370663260771655352320;
    -1052704981544969158955516003459542831595520;
    -231094419529965530214620561120522403840;
    10426781129045250731542802941115105280;
    -2909258127523786476434933856337920;
    757619304042652728238264025088;
    -184965650401038263730044928;
    42501298345826806923264;
    -9223372036854775808 ]%Z.
Definition qK : R := 9223372036854775808 * 6402373705728000 * 256 ^ 18.
Fixpoint zfact (n : nat) : Z := match n with O => 1%Z | S m => (Z.of_nat (S m) * zfact m)%Z end.
Lemma zfact_ok n : INR (fact n) = IZR (zfact n).
Proof. induction n as [|n IH]; [reflexivity|]. rewrite fact_simpl, mult_INR, IH. cbn [zfact]. rewrite mult_IZR, <- INR_IZR_INZ. reflexivity. Qed.
(** approx_exp's polynomial with the code's coefficients, as a real function *)
Definition Pexp (x : R) : R := fold_left (fun p c => IZR c / 9223372036854775808 - x * p) (tl Cexp) (IZR (hd 0%Z Cexp) / 9223372036854775808).
Definition Texp (x : R) : R := sum_f_R0 (tg_alt (eterm x)) 18.

Lemma qA_link y : pev qA y = qK * (Pexp (y / 256) - Texp (y / 256)).
Proof.
  unfold Texp, tg_alt, eterm. cbn [sum_f_R0]. rewrite !zfact_ok.
  repeat match goal with |- context [zfact ?n] => let v := eval vm_compute in (zfact n) in change (zfact n) with v end.
  unfold Pexp, Cexp. cbn [tl hd fold_left]. unfold pev, qA. cbn [fold_right]. unfold qK. field.
Time Qed.
Definition qB : Z := 526756755522444106045496711408967154623584537636013829615093690.
Lemma qB_le : IZR qB <= qK * (4 / 10000000000000000).
Proof. unfold qB, qK. lra. Qed.
Lemma qK_pos : 0 < qK. Proof. unfold qK. lra. Qed.
Lemma Pexp_Texp x : 0 <= x <= 178 / 256 -> Rabs (Pexp x - Texp x) <= 4 / 10000000000000000.
Proof.
  intros H. assert (L := qA_link (256 * x)). replace (256 * x / 256) with x in L by field.
  assert (B : Rabs (pev qA (256 * x)) <= IZR qB).
  { apply (poly_bound qA 89); [lia|vm_compute; reflexivity|]. replace (INR 89) with 89 by (rewrite INR_IZR_INZ; reflexivity). lra. }
  rewrite L, Rabs_mult, (Rabs_right qK) in B by (left; apply qK_pos). pose proof qB_le. pose proof qK_pos.
  apply Rmult_le_reg_l with qK; [exact qK_pos|]. lra.
Qed.
Lemma eterm_19 x : 0 <= x <= 7 / 10 -> 0 <= eterm x 19 <= 1 / 100000000000000000000.
Proof.
  intros H. split; [apply eterm_pos; lra|]. unfold eterm. rewrite zfact_ok. change (zfact 19) with 121645100408832000%Z.
  assert (x ^ 19 <= (7 / 10) ^ 19) by (apply pow_incr; lra). lra.
Qed.
Lemma Texp_exp x : 0 <= x <= 7 / 10 -> Rabs (Texp x - exp (- x)) <= 1 / 100000000000000000000.
Proof.
  intros H. pose proof (exp_alt 9 x ltac:(lra)) as [E1 E2]. change (2 * 9)%nat with 18%nat in *. fold (Texp x) in E2.
  rewrite tech5 in E1. fold (Texp x) in E1. pose proof (eterm_19 x H).
  assert (T : tg_alt (eterm x) 19 = - eterm x 19) by (unfold tg_alt; cbn [pow]; ring). rewrite T in E1. apply Rabs_le. lra.
Qed.
Lemma Pexp_exp x : 0 <= x <= 178 / 256 -> Rabs (Pexp x - exp (- x)) <= 4001 / 10000000000000000000.
Proof.
  intros H. pose proof (Pexp_Texp x H) as A. pose proof (Texp_exp x ltac:(lra)) as B.
  apply Rabs_le_inv in A. apply Rabs_le_inv in B. apply Rabs_le. lra.
Qed.

(** ** the fixed-point evaluation *)
Open Scope Z_scope.
Definition hstep (z1 : Z) (y c : Z) : Z := c - z1 * y / 2 ^ 63.
Definition hval (z1 : Z) : Z := fold_left (hstep z1) (tl Cexp) (hd 0 Cexp).
Fixpoint rising (lo : Z) (l : list Z) : bool := match l with [] => true | c :: l' => (lo <=? c) && rising c l' end.
Lemma hstep_range z1 y c lo : 0 <= z1 < 2 ^ 63 -> 0 <= y <= lo -> lo <= c -> c <= 2 ^ 63 -> 0 <= z1 * y / 2 ^ 63 /\ 0 <= hstep z1 y c <= c.
Proof.
  intros Hz Hy Hlo Hc. unfold hstep. change (2 ^ 63) with 9223372036854775808 in *.
  assert (0 <= z1 * y / 9223372036854775808 <= y); [|lia]. split; [apply Z.div_pos; nia|]. apply Z.div_le_upper_bound; nia.
Qed.
Lemma hstep_model z1 y c lo : 0 <= z1 < 2 ^ 63 -> 0 <= y <= lo -> lo <= c -> c <= 2 ^ 63 ->
  u64 (c - top_63_bits (full_mul_u64 z1 y)) = hstep z1 y c.
Proof.
  intros Hz Hy Hlo Hc. destruct (hstep_range z1 y c lo Hz Hy Hlo Hc) as [A B].
  rewrite mul_top_ok by (change (2 ^ 63) with 9223372036854775808 in *; lia). unfold hstep in *.
  assert (z1 * y / 2 ^ 63 <= y). { change (2 ^ 63) with 9223372036854775808 in *. apply Z.div_le_upper_bound; nia. }
  destruct (Z.eq_dec z1 0) as [->|N].
  { cbn [Z.mul]. rewrite Z.div_0_l in * by lia. rewrite Z.mod_0_l by lia. apply Z.mod_small. change (2 ^ 63) with 9223372036854775808 in *. lia. }
  rewrite (Z.mod_small (z1 * y / 2 ^ 63)).
  - apply Z.mod_small. change (2 ^ 63) with 9223372036854775808 in *. lia.
  - split; [exact A|]. apply Z.div_lt_upper_bound; [lia|]. change (2 ^ 63) with 9223372036854775808 in *. nia.
Qed.
Lemma hval_fold z1 l y lo : 0 <= z1 < 2 ^ 63 -> 0 <= y <= lo -> rising lo l = true -> Forall (fun c => c <= 2 ^ 63) l ->
  fold_left (fun y c => u64 (c - top_63_bits (full_mul_u64 z1 y))) l y = fold_left (hstep z1) l y /\ 0 <= fold_left (hstep z1) l y <= last l lo.
Proof.
  intros Hz. revert y lo. induction l as [|c l IH]; intros y lo Hy Hr HF; [cbn; lia|].
  cbn [rising] in Hr. apply andb_prop in Hr. destruct Hr as [Hr1 Hr2]. apply Z.leb_le in Hr1. inversion_clear HF.
  cbn [fold_left]. rewrite (hstep_model z1 y c lo) by assumption. destruct (hstep_range z1 y c lo) as [_ R]; try assumption.
  destruct (IH (hstep z1 y c) c R Hr2 H0) as [E B]. split; [exact E|]. replace (last (c :: l) lo) with (last l c); [exact B|].
  destruct l; [reflexivity|]. cbn [last]. clear. revert z. induction l as [|x l IH]; intros z; [reflexivity|]. cbn [last] in *. apply IH.
Qed.
Lemma exp_core_eq z1 z2 : 0 <= z1 < 2 ^ 63 -> 0 <= z2 <= 2 ^ 63 ->
  exp_core z1 z2 = Ok (z2 * hval z1 / 2 ^ 63 mod 2 ^ 63) /\ 0 <= hval z1 <= 2 ^ 63.
Proof.
  intros Hz1 Hz2.
  assert (E : exp_core z1 z2 = Ok (top_63_bits (full_mul_u64 z2 (fold_left (fun y c => u64 (c - top_63_bits (full_mul_u64 z1 y))) (tl Cexp) (hd 0 Cexp))))).
  { unfold exp_core, Cexp. cbn [rd nth_error bind forn tl hd fold_left]. reflexivity. }
  destruct (hval_fold z1 (tl Cexp) (hd 0 Cexp) (hd 0 Cexp)) as [H1 H2]; [exact Hz1|vm_compute; split; discriminate|reflexivity| |].
  { repeat (apply Forall_cons; [vm_compute; discriminate|]). apply Forall_nil. }
  rewrite H1 in E. fold (hval z1) in *. change (last (tl Cexp) (hd 0 Cexp)) with (2 ^ 63) in H2. rewrite E. split; [|exact H2].
  rewrite mul_top_ok; [reflexivity| |]; change (2 ^ 63) with 9223372036854775808 in *; lia.
Qed.

Open Scope R_scope.
Definition w63 : R := 9223372036854775808.
Lemma IZR_w63 : IZR (2 ^ 63) = w63. Proof. reflexivity. Qed.
Lemma div_real a b : (0 < b)%Z -> IZR a / IZR b - 1 < IZR (a / b) <= IZR a / IZR b.
Proof.
  intros H. assert (P : 0 < IZR b) by (apply IZR_lt; exact H). pose proof (Z.div_mod a b ltac:(lia)) as E. pose proof (Z.mod_pos_bound a b H) as [M1 M2].
  assert (E' : IZR a = IZR b * IZR (a / b) + IZR (a mod b)) by (rewrite <- mult_IZR, <- plus_IZR; f_equal; exact E).
  apply IZR_le in M1. apply IZR_lt in M2. rewrite E'. split.
  - apply Rmult_lt_reg_r with (IZR b); [exact P|]. field_simplify; [lra|lra].
  - apply Rmult_le_reg_r with (IZR b); [exact P|]. field_simplify; [lra|lra].
Qed.
Lemma hstep_real z1 y c p : (0 <= z1)%Z -> IZR z1 / w63 <= 3 / 4 -> Rabs (IZR y / w63 - p) <= 4 / w63 ->
  Rabs (IZR (hstep z1 y c) / w63 - (IZR c / w63 - IZR z1 / w63 * p)) <= 4 / w63.
Proof.
  intros Hz Hx Hp. unfold hstep. rewrite minus_IZR. pose proof (div_real (z1 * y) (2 ^ 63) ltac:(lia)) as D. rewrite mult_IZR, IZR_w63 in D.
  set (x := IZR z1 / w63) in *. assert (0 <= x) by (unfold x, w63; apply IZR_le in Hz; lra).
  replace (IZR z1 * IZR y / w63) with (x * IZR y) in D by (unfold x, w63; field).
  set (t := IZR (z1 * y / 2 ^ 63)) in *. set (py := IZR y / w63 - p) in *. assert (Ey : IZR y = w63 * (py + p)) by (unfold py, w63; field). rewrite Ey in D.
  apply Rabs_le. assert (Hpp : - (4 / w63) <= py <= 4 / w63) by (apply Rabs_le_inv; exact Hp).
  replace ((IZR c - t) / w63 - (IZR c / w63 - x * p)) with (x * p - t / w63) by (unfold w63; field).
  assert (Dt : x * py - / w63 <= t / w63 - x * p <= x * py).
  { unfold w63 in *. split; [apply Rmult_le_reg_l with 9223372036854775808; [lra|]; field_simplify; lra|apply Rmult_le_reg_l with 9223372036854775808; [lra|]; field_simplify; lra]. }
  assert (- (3 / w63) <= x * py <= 3 / w63). { unfold w63 in *. split; nra. }
  unfold w63 in *. lra.
Qed.
Lemma hval_real z1 : (0 <= z1)%Z -> IZR z1 / w63 <= 3 / 4 -> Rabs (IZR (hval z1) / w63 - Pexp (IZR z1 / w63)) <= 4 / w63.
Proof.
  intros Hz Hx. unfold hval, Pexp. change 9223372036854775808 with w63.
  assert (G : forall l y p, Rabs (IZR y / w63 - p) <= 4 / w63 ->
    Rabs (IZR (fold_left (hstep z1) l y) / w63 - fold_left (fun p c => IZR c / w63 - IZR z1 / w63 * p) l p) <= 4 / w63).
  { induction l as [|c l IH]; intros y p H; [exact H|]. cbn [fold_left]. apply IH. apply hstep_real; assumption. }
  apply G. unfold Rminus. rewrite Rplus_opp_r, Rabs_R0. unfold w63. lra.
Qed.

Lemma exp_core_error z1 z2 : (0 <= z1)%Z -> IZR z1 / w63 <= 178 / 256 -> (0 <= z2 <= 2 ^ 63)%Z ->
  Rabs (IZR (z2 * hval z1 / 2 ^ 63) / w63 - IZR z2 / w63 * exp (- (IZR z1 / w63))) <= 4002 / 10000000000000000000 + 5 / w63 /\
  (0 <= z2 * hval z1 / 2 ^ 63 <= 2 ^ 63)%Z /\ exp_core z1 z2 = Ok ((z2 * hval z1 / 2 ^ 63) mod 2 ^ 63)%Z.
Proof.
  intros Hz1 Hx Hz2. set (x := IZR z1 / w63) in *. assert (H0 : 0 <= x) by (unfold x, w63; apply IZR_le in Hz1; lra).
  assert (Hz1' : (0 <= z1 < 2 ^ 63)%Z). { split; [exact Hz1|]. apply lt_IZR. rewrite IZR_w63. unfold x, w63 in *. lra. }
  destruct (exp_core_eq z1 z2 Hz1' Hz2) as [E [R1 R2]].
  assert (RR : (0 <= z2 * hval z1 / 2 ^ 63 <= 2 ^ 63)%Z).
  { change (2 ^ 63)%Z with 9223372036854775808%Z in *. split; [apply Z.div_pos; nia|]. apply Z.div_le_upper_bound; nia. }
  split; [|split; [exact RR|exact E]].
  pose proof (hval_real z1 Hz1 ltac:(fold x; lra)) as A. fold x in A. pose proof (Pexp_exp x ltac:(lra)) as B.
  pose proof (div_real (z2 * hval z1) (2 ^ 63) ltac:(lia)) as D. rewrite mult_IZR, IZR_w63 in D.
  set (t := IZR (z2 * hval z1 / 2 ^ 63)) in *. set (c := IZR z2 / w63). set (y := IZR (hval z1) / w63) in *.
  assert (Hc : 0 <= c <= 1). { destruct Hz2 as [P1 P2]. apply IZR_le in P1. apply IZR_le in P2. rewrite IZR_w63 in P2. unfold c, w63 in *. lra. }
  replace (IZR z2 * IZR (hval z1) / w63) with (w63 * (c * y)) in D by (unfold c, y, w63; field).
  apply Rabs_le_inv in A. apply Rabs_le_inv in B.
  assert (C1 : - (4001 / 10000000000000000000 + 4 / w63) <= y - exp (- x) <= 4001 / 10000000000000000000 + 4 / w63) by lra.
  assert (C2 : - (4001 / 10000000000000000000 + 4 / w63) <= c * (y - exp (- x)) <= 4001 / 10000000000000000000 + 4 / w63) by (unfold w63 in *; nra).
  apply Rabs_le. unfold w63 in *. lra.
Qed.
