(** P_fmerge.v -- rounding errors of merge_fft; ff_sampling returns approximations of integer polynomials. *)
From Verif Require Import Base Ring Poly Spec SpecR SpecF M_xform P_xform M_codec P_codec M_float M_exact P_exact M_samp M_fft M_ntru P_ntru M_tree P_brv P_cplx P_fft P_tree P_treex P_gs P_sign P_l2 P_err P_ferr P_float.
From Coq Require Import Ring_theory Ring Lra Psatz.
Open Scope R_scope.

(** interleaving *)
Definition il (a b : nat -> Cx) (p : nat) : Cx := if (p mod 2 <? 1)%nat then a (p / 2)%nat else b (p / 2)%nat.
Lemma il_even a b i : il a b (2 * i) = a i.
Proof. unfold il. rewrite (Nat.mul_comm 2 i), Nat.mod_mul, Nat.div_mul by lia. reflexivity. Qed.
Lemma il_odd a b i : il a b (2 * i + 1) = b i.
Proof. unfold il. rewrite (Nat.add_comm _ 1), (Nat.mul_comm 2 i), Nat.mod_add, Nat.div_add by lia. reflexivity. Qed.
Lemma il_norm m a b : nrm (2 * m) (il a b) * nrm (2 * m) (il a b) = nrm m a * nrm m a + nrm m b * nrm m b.
Proof.
  rewrite !nrm_sq. replace (2 * m)%nat with (m * (2 * 1))%nat by lia. rewrite Rsigma_blocks, <- Rsigma_add. apply Rsigma_ext. intros i Hi. cbn [Rsigma].
  replace (i * (2 * 1) + 0)%nat with (2 * i)%nat by lia. replace (i * (2 * 1) + 1 + 0)%nat with (2 * i + 1)%nat by lia. rewrite il_even, il_odd. ring.
Qed.
(** the triangle inequality in the plane *)
Lemma plane_tri n2 k A B x : 0 <= k -> 0 <= A -> 0 <= B -> 0 <= x -> n2 <= (k * A + x) * (k * A + x) + (k * B + x) * (k * B + x) ->
  sqrt n2 <= k * sqrt (A * A + B * B) + sqrt 2 * x.
Proof.
  intros Hk HA HB Hx H. set (V := sqrt (A * A + B * B)). assert (PV : 0 <= V) by apply sqrt_pos. assert (V2 : V * V = A * A + B * B) by (apply sqrt_sqrt; pose proof (Rle_0_sqr A) as Q1; pose proof (Rle_0_sqr B) as Q2; unfold Rsqr in *; lra).
  assert (S2 := sqrt2_sq). assert (S0 := sqrt2_pos). set (s := sqrt 2) in *.
  assert (AB : A + B <= s * V). { apply sq_le; [apply Rmult_le_pos; lra|]. replace (s * V * (s * V)) with (s * s * (V * V)) by ring. rewrite S2, V2. pose proof (Rle_0_sqr (A - B)) as Q. unfold Rsqr in Q. lra. }
  assert (W : 0 <= k * V + s * x) by (apply Rplus_le_le_0_compat; apply Rmult_le_pos; lra). rewrite <- (sqrt_square (k * V + s * x)) by exact W. apply sqrt_le_1_alt.
  replace ((k * V + s * x) * (k * V + s * x)) with (k * k * (V * V) + 2 * (k * x) * (s * V) + s * s * (x * x)) by ring. rewrite S2, V2.
  assert (0 <= k * x) by (apply Rmult_le_pos; lra). assert (2 * (k * x) * (A + B) <= 2 * (k * x) * (s * V)) by (apply Rmult_le_compat_l; lra). lra.
Qed.

Section Mrg.
Variable F : fops.
Variable fin : D F -> Prop.
Variable val : D F -> R.
Hypothesis A : accurate F fin val.
Notation C := (D F * D F)%type.
Notation d := (c0 F).
Notation cv := (cv F val).
Notation X := (X F val).
Notation apx := (apx F fin val).
Notation vfin := (vfin F fin).
Notation cfin := (cfin F fin).
Variable ztab : list C.
Hypothesis HZ : table_near F fin val ztab.

Lemma mulz_err' z z' y : cfin z' -> cfin y -> Cm z = 1 -> Cm (Csub (cv z') z) <= 15 / 10000000000000000 -> Cm (cv y) <= 10 ^ 41 ->
  cfin (fcmul F y z') /\ Cm (Csub (cv (fcmul F y z')) (Cmul z (cv y))) <= 1835 / 1000000000000000000 * Cm (cv y) + tiny.
Proof.
  intros Hz Hy Z1 Z2 By. assert (Bz : Cm (cv z') <= 1001 / 1000). { pose proof (Cm_le_add (cv z') z). lra. }
  destruct (cmul_err F fin val A y z' Hy Hz) as [G1 G2]; [apply huge_40; exact By|apply huge_40; eapply Rle_trans; [exact Bz|]; assert (1 <= 10 ^ 40) by (apply pow_R1_Rle; lra); cbn [pow] in *; lra|].
  split; [exact G1|]. set (m := cv (fcmul F y z')) in *.
  assert (T : Cm (Csub m (Cmul z (cv y))) <= Cm (Csub m (Cmul (cv y) (cv z'))) + Cm (Csub (cv z') z) * Cm (cv y)).
  { rewrite <- Cm_mul. eapply Rle_trans; [|apply Cm_tri]. right. f_equal. apply Cx_eq; cx; ring. }
  pose proof (Cm_pos (cv y)) as P. rewrite ulp_val in G2.
  assert (Q1 : Cm (Csub (cv z') z) * Cm (cv y) <= 15 / 10000000000000000 * Cm (cv y)) by (apply Rmult_le_compat_r; assumption).
  assert (Q2 : Cm (cv y) * Cm (cv z') <= Cm (cv y) * (1001 / 1000)) by (apply Rmult_le_compat_l; assumption).
  lra.
Qed.
Lemma mrg_point z z' x y : cfin z' -> cfin x -> cfin y -> Cm z = 1 -> Cm (Csub (cv z') z) <= 15 / 10000000000000000 -> Cm (cv x) <= 10 ^ 40 -> Cm (cv y) <= 10 ^ 40 ->
  (cfin (cadd F x (fcmul F y z')) /\ Cm (Csub (cv (cadd F x (fcmul F y z'))) (Cadd (cv x) (Cmul z (cv y)))) <= ulp * Cm (Cadd (cv x) (Cmul z (cv y))) + 1836 / 1000000000000000000 * Cm (cv y) + 2 * tiny) /\
  (cfin (csub F x (fcmul F y z')) /\ Cm (Csub (cv (csub F x (fcmul F y z'))) (Csub (cv x) (Cmul z (cv y)))) <= ulp * Cm (Csub (cv x) (Cmul z (cv y))) + 1836 / 1000000000000000000 * Cm (cv y) + 2 * tiny).
Proof.
  intros Hz Hx Hy Z1 Z2 Bx By. assert (P40 : 1 <= 10 ^ 40) by (apply pow_R1_Rle; lra). assert (T := tiny_pos). assert (P41 : 10 ^ 41 = 10 * 10 ^ 40) by reflexivity.
  assert (T1 : tiny <= 1). { pose proof tiny_huge. pose proof huge_big. nra. }
  destruct (mulz_err' z z' y Hz Hy Z1 Z2) as [M1 M2]; [lra|]. set (m := fcmul F y z') in *. pose proof (Cm_pos (cv y)) as Py. pose proof (Cm_pos (cv x)) as Px.
  assert (Ezy : Cm (Cmul z (cv y)) = Cm (cv y)) by (rewrite Cm_mul, Z1; ring).
  assert (Bm : Cm (cv m) <= 10 ^ 41). { pose proof (Cm_le_add (cv m) (Cmul z (cv y))). lra. }
  rewrite ulp_val in *. split.
  - destruct (cadd_err F fin val A x m Hx M1) as [G1 G2]; [apply huge_40; lra|apply huge_40; exact Bm|]. split; [exact G1|].
    assert (T2 : Cm (Csub (cv (cadd F x m)) (Cadd (cv x) (Cmul z (cv y)))) <= Cm (Csub (cv (cadd F x m)) (Cadd (cv x) (cv m))) + Cm (Csub (cv m) (Cmul z (cv y)))).
    { eapply Rle_trans; [|apply Cm_tri]. right. f_equal. apply Cx_eq; cx; ring. }
    assert (T3 : Cm (Cadd (cv x) (cv m)) <= Cm (Cadd (cv x) (Cmul z (cv y))) + Cm (Csub (cv m) (Cmul z (cv y)))).
    { eapply Rle_trans; [|apply Cm_tri]. right. f_equal. apply Cx_eq; cx; ring. }
    rewrite ulp_val in G2. lra.
  - destruct (csub_err F fin val A x m Hx M1) as [G1 G2]; [apply huge_40; lra|apply huge_40; exact Bm|]. split; [exact G1|].
    assert (T2 : Cm (Csub (cv (csub F x m)) (Csub (cv x) (Cmul z (cv y)))) <= Cm (Csub (cv (csub F x m)) (Csub (cv x) (cv m))) + Cm (Csub (cv m) (Cmul z (cv y)))).
    { rewrite (Cm_swap (cv m)). eapply Rle_trans; [|apply Cm_tri]. right. f_equal. apply Cx_eq; cx; ring. }
    assert (T3 : Cm (Csub (cv x) (cv m)) <= Cm (Csub (cv x) (Cmul z (cv y))) + Cm (Csub (cv m) (Cmul z (cv y)))).
    { rewrite (Cm_swap (cv m)). eapply Rle_trans; [|apply Cm_tri]. right. f_equal. apply Cx_eq; cx; ring. }
    rewrite ulp_val in G2. lra.
Qed.

(** merge_fft cell by cell *)
Lemma merge_raw h (a b o : list C) : (S h <= 10)%nat -> length a = (2 ^ h)%nat -> length b = (2 ^ h)%nat -> length o = (2 ^ S h)%nat ->
  merge_fft F ztab (S h) a b o = Ok (tab (2 ^ S h) (fun p => let x := nth (p / 2) a d in let m := fcmul F (nth (p / 2) b d) (nth (2 ^ h + p / 2) ztab d) in
    if (p mod 2 <? 1)%nat then cadd F x m else csub F x m)).
Proof.
  intros Hh La Lb Lo. unfold merge_fft. rewrite half_pow. assert (Hp : (2 ^ S h <= 1024)%nat) by (apply pow_1024; exact Hh).
  refine (fill_pairs d (2 ^ h) _ o _ Lo _). intros i v Hi Lv. assert (Lz : length ztab = 1024%nat) by apply HZ.
  rewrite (rd_Ok ztab (2 ^ h + i) d) by (simpl in Hp; lia). cbn [bind]. rewrite (rd_Ok a i d) by lia. cbn [bind]. rewrite (rd_Ok b i d) by lia. cbn [bind].
  replace (2 * i + 0)%nat with (2 * i)%nat by lia. rewrite wr_Ok by lia. cbn [bind]. rewrite wr_Ok by (rewrite upd_length; lia). apply (f_equal Ok).
  replace (2 * i / 2)%nat with i by (rewrite Nat.mul_comm, Nat.div_mul; lia). replace ((2 * i + 1) / 2)%nat with i by (rewrite (Nat.add_comm _ 1), (Nat.mul_comm 2 i), Nat.div_add by lia; reflexivity).
  replace (2 * i mod 2)%nat with 0%nat by (rewrite Nat.mul_comm, Nat.mod_mul; lia). replace ((2 * i + 1) mod 2)%nat with 1%nat by (rewrite (Nat.add_comm _ 1), (Nat.mul_comm 2 i), Nat.mod_add by lia; reflexivity). reflexivity.
Qed.
Definition zt (h : nat) (b : nat) : Cx := nth (2 ^ h + b) exact_table Czero.
Lemma merge_exact h (a b : cpv (2 ^ h)) p : (S h <= 10)%nat -> (p < 2 ^ S h)%nat -> @ev (S h) (pint a b) p = bf 1 (zt h) (il (ev a) (ev b)) p.
Proof.
  intros Hh Hp. assert (E : exists i, (p = 2 * i \/ p = 2 * i + 1)%nat) by (exists (p / 2)%nat; pose proof (Nat.div_mod p 2); pose proof (Nat.mod_upper_bound p 2); lia).
  destruct E as [i [->| ->]].
  - assert (E0 := ev_even h (pint a b) i). rewrite pev_pint, pod_pint in E0. etransitivity; [exact E0|]. unfold bf. change (2 * 1)%nat with 2%nat.
    replace (2 * i / 2)%nat with i by (rewrite Nat.mul_comm, Nat.div_mul; lia). replace (2 * i mod 2)%nat with 0%nat by (rewrite Nat.mul_comm, Nat.mod_mul; lia). cbn [Nat.ltb Nat.leb].
    rewrite il_even, il_odd. unfold zt. rewrite <- table_pt by (assumption || (simpl in Hp; lia)). reflexivity.
  - assert (E0 := ev_odd h (pint a b) i). rewrite pev_pint, pod_pint in E0. etransitivity; [exact E0|]. unfold bf. change (2 * 1)%nat with 2%nat.
    replace ((2 * i + 1) / 2)%nat with i by (rewrite (Nat.add_comm _ 1), (Nat.mul_comm 2 i), Nat.div_add by lia; reflexivity).
    replace ((2 * i + 1) mod 2)%nat with 1%nat by (rewrite (Nat.add_comm _ 1), (Nat.mul_comm 2 i), Nat.mod_add by lia; reflexivity). cbn [Nat.ltb Nat.leb].
    rewrite il_odd. replace (2 * i + 1 - 1)%nat with (2 * i)%nat by lia. rewrite il_even. unfold zt. rewrite <- table_pt by (assumption || (simpl in Hp; lia)). reflexivity.
Qed.

Lemma zt_unit h b : (S h <= 10)%nat -> (b < 2 ^ h)%nat -> mod2 (zt h b) = 1.
Proof.
  intros Hh Hb. assert (Hp : (2 ^ S h <= 1024)%nat) by (apply pow_1024; exact Hh). simpl in Hp.
  destruct (tab_entry F fin val ztab HZ (2 ^ h + b)) as [_ [H _]]; [lia|]. rewrite <- Cm_sq. unfold zt. rewrite H. ring.
Qed.
Lemma merge_norm h (a b : cpv (2 ^ h)) : (S h <= 10)%nat ->
  nrm (2 ^ S h) (@ev (S h) (pint a b)) = sqrt 2 * sqrt (nrm (2 ^ h) (ev a) * nrm (2 ^ h) (ev a) + nrm (2 ^ h) (ev b) * nrm (2 ^ h) (ev b)).
Proof.
  intros Hh. rewrite (nrm_ext _ _ _ (fun p => merge_exact h a b p Hh)). rewrite (bf_norm _ (2 ^ h) 1 (zt h)); [|simpl; lia|intros; apply zt_unit; assumption].
  f_equal. rewrite <- il_norm. symmetry. apply sqrt_square, nrm_pos.
Qed.
Lemma merge_apx h k (a b o : list C) (pa pb : cpv (2 ^ h)) x : (S h <= 10)%nat -> (k <= 10)%nat -> 0 <= x <= 1 ->
  nrm (2 ^ h) (ev pa) <= 10 ^ 30 -> nrm (2 ^ h) (ev pb) <= 10 ^ 30 ->
  apx (2 ^ h) a (ev pa) (INR k * ep * nrm (2 ^ h) (ev pa) + x) -> apx (2 ^ h) b (ev pb) (INR k * ep * nrm (2 ^ h) (ev pb) + x) -> length o = (2 ^ S h)%nat ->
  exists w, merge_fft F ztab (S h) a b o = Ok w /\
    apx (2 ^ S h) w (@ev (S h) (pint pa pb)) (INR (S k) * ep * nrm (2 ^ S h) (@ev (S h) (pint pa pb)) + (3 * x + 64 * tiny)).
Proof.
  intros Hh Hk Hx Na Nb Ha Hb Lo. assert (Va := proj1 Ha). assert (Vb := proj1 Hb). destruct Va as [La Fa]. destruct Vb as [Lb Fb].
  eexists. split; [apply merge_raw; assumption|]. rewrite merge_norm by exact Hh. destruct (lg_ep k Hk) as [K0 K1]. set (kk := INR k * ep) in *.
  replace (INR (S k) * ep) with (kk + ep) by (unfold kk; rewrite S_INR; ring).
  assert (Hp : (2 ^ S h <= 1024)%nat) by (apply pow_1024; exact Hh). set (n := (2 ^ S h)%nat) in *. set (m := (2 ^ h)%nat) in *. assert (En : n = (2 * m)%nat) by reflexivity.
  set (NA := nrm m (ev pa)) in *. set (NB := nrm m (ev pb)) in *. assert (PA : 0 <= NA) by apply nrm_pos. assert (PB : 0 <= NB) by apply nrm_pos.
  set (V := sqrt (NA * NA + NB * NB)). assert (PV : 0 <= V) by apply sqrt_pos.
  set (U := il (X a) (X b)). set (U' := il (ev pa) (ev pb)).
  assert (EU : nrm n (fun p => Csub (U p) (U' p)) <= kk * V + sqrt 2 * x).
  { rewrite (nrm_ext n _ (il (fun i => Csub (X a i) (ev pa i)) (fun i => Csub (X b i) (ev pb i)))).
    2:{ intros p Hpp. unfold U, U', il. destruct (_ <? _)%nat; reflexivity. }
    rewrite <- (sqrt_square (nrm n _)) by apply nrm_pos. rewrite En, il_norm. apply plane_tri; try lra.
    apply Rplus_le_compat; (apply Rmult_le_compat; [apply nrm_pos|apply nrm_pos|apply Ha || apply Hb|apply Ha || apply Hb]). }
  assert (NU' : nrm n U' = V). { unfold V. rewrite <- (sqrt_square (nrm n U')) by apply nrm_pos. f_equal. unfold U'. rewrite En, il_norm. reflexivity. }
  assert (S2 := sqrt2_sq). assert (S0 := sqrt2_pos). assert (S1 : 1 <= sqrt 2 <= 3 / 2) by (split; nra). set (s := sqrt 2) in *.
  assert (SX : 0 <= s * x <= 3 / 2 * x) by (split; [apply Rmult_le_pos; lra|apply Rmult_le_compat_r; lra]).
  assert (KV : 0 <= kk * V <= 2 / 100000000000000 * V) by (split; [apply Rmult_le_pos; lra|apply Rmult_le_compat_r; lra]).
  assert (NU : nrm n U <= (1 + 2 / 100000000000000) * V + 3 / 2 * x) by (pose proof (nrm_le_add n U U'); lra).
  assert (P30 : 1 <= 10 ^ 30) by (apply pow_R1_Rle; lra). assert (P40 : 10 ^ 40 = 10000000000 * 10 ^ 30) by (change 40%nat with (10 + 30)%nat; rewrite pow_add; simpl; lra).
  assert (BV : V <= 2 * 10 ^ 30).
  { unfold V. apply Rle_trans with (sqrt ((NA + NB) * (NA + NB))); [apply sqrt_le_1_alt; assert (0 <= NA * NB) by (apply Rmult_le_pos; assumption); lra|]. rewrite sqrt_square by lra. lra. }
  assert (BU : forall p, (p < n)%nat -> Cm (U p) <= 10 ^ 40).
  { intros p Hpp. pose proof (nrm_comp n U p Hpp). lra. }
  assert (Hz := fun b => zt_unit h b Hh). fold m in Hz. assert (En' : n = (m * (2 * 1))%nat) by lia.
  set (w := tab n _).
  assert (Pt : forall p, (p < n)%nat -> cfin (nth p w d) /\ Cm (Csub (X w p) (bf 1 (zt h) U p)) <= ulp * Cm (bf 1 (zt h) U p) + 1836 / 1000000000000000000 * Cm (bw 1 U p) + 2 * tiny).
  { intros p Hpp. unfold P_err.X, w. rewrite nth_tab by exact Hpp. cbv zeta. unfold bf, bw. change (2 * 1)%nat with 2%nat.
    assert (Hi : (p / 2 < m)%nat) by (apply Nat.div_lt_upper_bound; lia). set (i := (p / 2)%nat) in *.
    destruct (tab_entry F fin val ztab HZ (m + i)) as [Z1 [Z2 Z3]]; [lia|]. fold m in Hz. change (nth (m + i) exact_table Czero) with (zt h i) in Z2, Z3.
    assert (E2 := Nat.div_mod p 2 ltac:(lia)). assert (M2 := Nat.mod_upper_bound p 2 ltac:(lia)). fold i in E2.
    assert (UA : Cm (cv (nth i a d)) <= 10 ^ 40) by (assert (Q := BU (2 * i)%nat ltac:(lia)); unfold U in Q; rewrite il_even in Q; exact Q).
    assert (UB : Cm (cv (nth i b d)) <= 10 ^ 40) by (assert (Q := BU (2 * i + 1)%nat ltac:(lia)); unfold U in Q; rewrite il_odd in Q; exact Q).
    destruct (mrg_point (zt h i) (nth (m + i) ztab d) (nth i a d) (nth i b d) Z1 (Fa i Hi) (Fb i Hi) Z2 Z3 UA UB) as [G1 G2].
    destruct (Nat.ltb_spec (p mod 2) 1) as [Hm|Hm].
    - assert (Ep : p = (2 * i)%nat) by lia. replace (U p) with (X a i) by (unfold U; rewrite Ep, il_even; reflexivity). replace (U (p + 1)%nat) with (X b i) by (unfold U; rewrite Ep, il_odd; reflexivity). exact G1.
    - assert (Ep : p = (2 * i + 1)%nat) by lia. replace (U (p - 1)%nat) with (X a i) by (unfold U; replace (p - 1)%nat with (2 * i)%nat by lia; rewrite il_even; reflexivity). replace (U p) with (X b i) by (unfold U; rewrite Ep, il_odd; reflexivity). exact G2. }
  assert (V2 : vfin n w) by (split; [apply tab_length|intros i Hi; apply (Pt i Hi)]).
  apply (apx_ext F fin val n w (bf 1 (zt h) U')); [intros p Hpp; symmetry; apply merge_exact; assumption|].
  assert (T := tiny_pos).
  assert (R1 : nrm n (fun p => Csub (X w p) (bf 1 (zt h) U p)) <= 19475 / 10000000000000000000 * (s * nrm n U) + 64 * tiny).
  { set (y := fun p => (ulp * Cm (bf 1 (zt h) U p) + 1836 / 1000000000000000000 * Cm (bw 1 U p), 0)).
    assert (Cw : forall p, Cm (y p) = ulp * Cm (bf 1 (zt h) U p) + 1836 / 1000000000000000000 * Cm (bw 1 U p)).
    { intros p. unfold y, Cm at 1, mod2. cbn [fst snd]. rewrite Rmult_0_l, Rplus_0_r. apply sqrt_square. pose proof (Cm_pos (bf 1 (zt h) U p)). pose proof (Cm_pos (bw 1 U p)). rewrite ulp_val. lra. }
    assert (N1 := nrm_bound n (fun p => Csub (X w p) (bf 1 (zt h) U p)) y 1 (2 * tiny) ltac:(lra) ltac:(lra)).
    assert (N2 : nrm n y <= ulp * nrm n (bf 1 (zt h) U) + 1836 / 1000000000000000000 * nrm n (bw 1 U)).
    { unfold nrm at 1. eapply Rle_trans; [apply (rn_mono n _ (fun p => ulp * Cm (bf 1 (zt h) U p) + 1836 / 1000000000000000000 * Cm (bw 1 U p))); intros i Hi; rewrite Cw; split; [pose proof (Cm_pos (bf 1 (zt h) U i)); pose proof (Cm_pos (bw 1 U i)); rewrite ulp_val; lra|apply Rle_refl]|].
      eapply Rle_trans; [apply rn_tri|]. rewrite !rn_scal by (rewrite ?ulp_val; lra). apply Rle_refl. }
    assert (N3 := bf_norm n _ _ (zt h) U En' Hz). assert (N4 := bw_norm n _ _ U En'). rewrite N3 in N2. fold s in N2, N4.
    eapply Rle_trans; [apply N1; intros i Hi; rewrite Cw; destruct (Pt i Hi) as [_ H]; lra|].
    assert (Sn := sqrt_1024 n Hp). assert (Sn0 := sqrt_pos (INR n)).
    assert (U1 : 2 * tiny * sqrt (INR n) <= 2 * tiny * 32) by (apply Rmult_le_compat_l; lra). assert (PU : 0 <= s * nrm n U) by (apply Rmult_le_pos; [lra|apply nrm_pos]).
    rewrite ulp_val in N2. lra. }
  assert (R2 : nrm n (fun p => Csub (bf 1 (zt h) U p) (bf 1 (zt h) U' p)) <= s * (kk * V + s * x)).
  { rewrite (nrm_ext n _ (bf 1 (zt h) (fun i => Csub (U i) (U' i)))) by (intros; apply bf_lin). rewrite (bf_norm n _ _ (zt h) _ En' Hz). apply Rmult_le_compat_l; [lra|exact EU]. }
  eapply apx_weak; [apply (apx_step F fin val n w _ _ _ _ V2 R1 R2)|].
  assert (SU : s * nrm n U <= s * ((1 + 2 / 100000000000000) * V + 3 / 2 * x)) by (apply Rmult_le_compat_l; lra).
  replace (s * (kk * V + s * x)) with (kk * (s * V) + s * s * x) by ring. rewrite S2. set (M := s * V) in *.
  replace (s * ((1 + 2 / 100000000000000) * V + 3 / 2 * x)) with ((1 + 2 / 100000000000000) * M + 3 / 2 * (s * x)) in SU by (unfold M; ring).
  assert (PM : 0 <= M) by (apply Rmult_le_pos; lra). unfold ep in *. lra.
Qed.

(** ** ff_sampling *)
Lemma samplerz_i32 fuel mu sg smin g pos z pos' : samplerz F fuel mu sg smin g pos = Ok (z, pos') -> (-2147483648 <= z < 2147483648)%Z.
Proof.
  unfold samplerz. generalize (fsub F mu (ffloor F mu)) (fdiv F smin sg) (inv_2sq F sg). intros r ccs t0. revert pos.
  induction fuel as [|fuel IH]; intros pos H; cbn [samplerz_loop] in H; [discriminate|].
  apply bind_Ok in H. destruct H as [[u p1] [_ H]]. apply bind_Ok in H. destruct H as [[b p2] [_ H]]. destruct (b =? 1)%Z; [|apply (IH _ H)].
  apply bind_Ok in H. destruct H as [o [E H]]. injection H as <- _. unfold to_i32, to_range in E. destruct (ftrunc F _) as [v|]; [|discriminate].
  destruct ((-2147483648 <=? v) && (v <? 2147483648))%Z%bool eqn:Q; [|discriminate]. injection E as <-. apply andb_prop in Q. lia.
Qed.
Definition xh (h : nat) : R := 4 ^ h * (64 * tiny).
Lemma xh_bound h : (h <= 10)%nat -> 0 <= xh h <= 1 / 10 ^ 20.
Proof.
  intros H. assert (P : 4 ^ h <= 4 ^ 10) by (apply Rle_pow; [lra|lia]). assert (P0 : 0 < 4 ^ h) by (apply pow_lt; lra). assert (T := tiny_pos). assert (T1 := tiny_1). unfold xh.
  split; [apply Rmult_le_pos; lra|]. apply Rle_trans with (4 ^ 10 * (64 * (1 / 1000000000000000000000000000000))); [apply Rmult_le_compat; lra|]. simpl. lra.
Qed.
Lemma single_apx (z : Z) : (-2147483648 <= z < 2147483648)%Z ->
  apx 1 [cof F (fofz F z)] (@ev 0 (emb (ofl Z 0%Z 1 [z]))) 0 /\ nrm 1 (@ev 0 (emb (ofl Z 0%Z 1 [z]))) <= 2147483648.
Proof.
  intros Hz. destruct (cof_int F fin val A z) as [H1 H2]; [change (2 ^ 53)%Z with 9007199254740992%Z; lia|].
  assert (E : forall i, (i < 1)%nat -> @ev 0 (emb (ofl Z 0%Z 1 [z])) i = Cz z).
  { intros i Hi. assert (i = 0)%nat by lia. subst i. assert (S := ft_single z). apply (f_equal (fun l => nth 0 l Czero)) in S. rewrite (nth_ft 0) in S by (simpl; lia). symmetry. exact S. }
  split; [split|].
  - split; [reflexivity|]. intros i Hi. assert (i = 0)%nat by lia. subst i. exact H1.
  - rewrite (nrm_ext 1 _ (fun _ => Czero)).
    + eapply Rle_trans; [apply (nrm_sup 1 _ 0 (Rle_refl _)); intros; rewrite Cm_zero; lra|]. lra.
    + intros i Hi. rewrite E by exact Hi. assert (i = 0)%nat by lia. subst i. unfold P_err.X. cbn [nth]. rewrite H2. apply Cx_eq; cx; ring.
  - rewrite (nrm_ext 1 _ (fun _ => Cz z) E). eapply Rle_trans; [apply (nrm_sup 1 _ 2147483648); [lra|]|replace (INR 1) with 1 by reflexivity; rewrite sqrt_1; lra].
    intros i Hi. apply Cm_le; [lra|]. unfold mod2, Cz. cbn [fst snd]. assert (Rabs (IZR z) <= 2147483648) by (rewrite <- abs_IZR; apply IZR_le; lia).
    rewrite Rmult_0_l, Rplus_0_r. rewrite <- (Rabs_pos_eq (IZR z * IZR z)) by (apply Rle_0_sqr). rewrite Rabs_mult. apply Rmult_le_compat; try apply Rabs_pos; assumption.
Qed.
Definition int_apx (h : nat) (z : list C) (a : zpv (2 ^ h)) : Prop :=
  apx (2 ^ h) z (ev (emb a)) (INR h * ep * nrm (2 ^ h) (ev (emb a)) + xh h) /\ nrm (2 ^ h) (ev (emb a)) <= 2 ^ h * 2147483648.
Lemma merge_int' h (a b o : list C) (pa pb : zpv (2 ^ h)) : (S h <= 10)%nat -> int_apx h a pa -> int_apx h b pb -> length o = (2 ^ S h)%nat ->
  exists w p, merge_fft F ztab (S h) a b o = Ok w /\ @emb (2 ^ S h) p = pint (emb pa) (emb pb) /\ int_apx (S h) w p.
Proof.
  intros Hh [Ha Na] [Hb Nb] Lo. destruct (xh_bound h ltac:(lia)) as [X0 X1]. assert (P20 : 1 / 10 ^ 20 <= 1).
  { apply (Rmult_le_reg_r (10 ^ 20)); [apply pow_lt; lra|]. unfold Rdiv. rewrite Rmult_assoc, Rinv_l by (apply pow_nonzero; lra). assert (1 <= 10 ^ 20) by (apply pow_R1_Rle; lra). lra. }
  assert (P : 2 ^ h <= 2 ^ 10) by (apply Rle_pow; [lra|lia]). assert (P0 : 1 <= 2 ^ h) by (apply pow_R1_Rle; lra).
  assert (B : 2 ^ h * 2147483648 <= 10 ^ 30) by (apply Rle_trans with (2 ^ 10 * 2147483648); [apply Rmult_le_compat_r; lra|simpl; lra]).
  destruct (merge_apx h h a b o (emb pa) (emb pb) (xh h) Hh ltac:(lia) ltac:(lra) ltac:(lra) ltac:(lra) Ha Hb Lo) as (w & E & Hw).
  destruct (emb_pint h pa pb) as [p Ep]. exists w, p. split; [exact E|]. split; [exact Ep|].
  assert (Hn := merge_norm h (emb pa) (emb pb) Hh). change (@emb (2 ^ S h) p) with (emb p : cpv (2 ^ S h)) in Ep. unfold int_apx. rewrite Ep. split.
  - eapply apx_weak; [exact Hw|]. apply Rplus_le_compat_l. unfold xh. assert (T := tiny_pos). assert (1 <= 4 ^ h) by (apply pow_R1_Rle; lra). change (4 ^ S h) with (4 * 4 ^ h).
    assert (1 * (64 * tiny) <= 4 ^ h * (64 * tiny)) by (apply Rmult_le_compat_r; lra). lra.
  - rewrite Hn. change (2 ^ S h) with (2 * 2 ^ h). set (Y := 2 ^ h * 2147483648) in *. assert (PY : 0 <= Y) by (unfold Y; apply Rmult_le_pos; lra).
    apply Rle_trans with (sqrt 2 * sqrt (Y * Y + Y * Y)).
    + apply Rmult_le_compat_l; [apply sqrt_pos|]. apply sqrt_le_1_alt. apply Rplus_le_compat; apply Rmult_le_compat; try apply nrm_pos; assumption.
    + replace (Y * Y + Y * Y) with (2 * (Y * Y)) by ring. rewrite sqrt_mult, sqrt_square by (try lra; apply Rmult_le_pos; lra). rewrite <- Rmult_assoc, sqrt2_sq. unfold Y. lra.
Qed.
Lemma merge_int h (a b o : list C) (pa pb : zpv (2 ^ h)) : (S h <= 10)%nat -> int_apx h a pa -> int_apx h b pb -> length o = (2 ^ S h)%nat ->
  exists w p, merge_fft F ztab (S h) a b o = Ok w /\ int_apx (S h) w p.
Proof. intros H1 H2 H3 H4. destruct (merge_int' h a b o pa pb H1 H2 H3 H4) as (w & p & E & _ & I). exists w, p. split; assumption. Qed.
Lemma ffsamp_apx fuel smin g (T : list C) : forall h lvl (t0 t1 : list C) off pos z0 z1 pos', (h <= 10)%nat ->
  ff_sampling F ztab fuel h lvl t0 t1 T off smin g pos = Ok (z0, z1, pos') ->
  exists a0 a1 : zpv (2 ^ h), int_apx h z0 a0 /\ int_apx h z1 a1.
Proof.
  induction h as [|h IH]; intros lvl t0 t1 off pos z0 z1 pos' Hh H.
  - cbn [ff_sampling] in H. apply bind_Ok in H. destruct H as [x [_ H]]. apply bind_Ok in H. destruct H as [a [_ H]].
    apply bind_Ok in H. destruct H as [[u p1] [S0 H]]. apply bind_Ok in H. destruct H as [b [_ H]]. apply bind_Ok in H. destruct H as [[v p2] [S1 H]].
    exists (ofl Z 0%Z 1 [u]), (ofl Z 0%Z 1 [v]).
    assert (E0 := f_equal (fun r => match r with Ok (a, _, _) => a | _ => [] end) H). assert (E1 := f_equal (fun r => match r with Ok (_, a, _) => a | _ => [] end) H).
    cbv beta iota in E0, E1. rewrite <- E0, <- E1. apply samplerz_i32 in S0, S1. destruct (xh_bound 0 ltac:(lia)) as [X0 _].
    split; (split; [eapply apx_weak; [apply single_apx; assumption|cbn [INR]; lra]|cbn [pow]; rewrite Rmult_1_l; apply single_apx; assumption]).
  - cbn [ff_sampling] in H. rewrite half_pow2 in H.
    apply bind_Ok in H. destruct H as [l [_ H]]. apply bind_Ok in H. destruct H as [[u0 u1] [_ H]].
    apply bind_Ok in H. destruct H as [[[zr0 zr1] pr] [Hr H]]. apply IH in Hr; [|lia]. destruct Hr as (a & b & Ha & Hb).
    destruct (merge_int h zr0 zr1 (fresh F (2 ^ S h)) a b Hh Ha Hb (repeat_length _ _)) as (m1 & p1 & E1 & I1). rewrite E1 in H. cbn [bind] in H.
    apply bind_Ok in H. destruct H as [tm [_ H]]. apply bind_Ok in H. destruct H as [tn [_ H]]. apply bind_Ok in H. destruct H as [to [_ H]]. apply bind_Ok in H. destruct H as [[v0 v1] [_ H]].
    apply bind_Ok in H. destruct H as [[[zl0 zl1] pl'] [Hl H]]. apply IH in Hl; [|lia]. destruct Hl as (a' & b' & Ha' & Hb').
    destruct (merge_int h zl0 zl1 (fresh F (2 ^ S h)) a' b' Hh Ha' Hb' (repeat_length _ _)) as (m0 & p0 & E0 & I0). rewrite E0 in H. cbn [bind] in H.
    exists p0, p1. assert (X0 := f_equal (fun r => match r with Ok (a, _, _) => a | _ => [] end) H). assert (X1 := f_equal (fun r => match r with Ok (_, a, _) => a | _ => [] end) H).
    cbv beta iota in X0, X1. subst m0 m1. split; assumption.
Qed.
End Mrg.
