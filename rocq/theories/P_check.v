(** P_check.v -- the NTRU check of the tests, in rounded arithmetic. *)
From Verif Require Import Base Ring Poly Spec SpecR SpecF M_ff M_xform P_xform M_codec P_codec M_float M_exact M_samp M_fft M_ntru P_ntru M_tree P_brv P_cplx P_fft P_tree P_treex P_gs P_sign P_signx P_l2 P_err P_ferr P_float P_fsv M_check.
From Coq Require Import Ring_theory Ring Lra Psatz.
Open Scope R_scope.

(** the loop that rounds and compares *)
Section Loop.
Variable h : nat -> res Z.
Variable test : nat -> Z -> bool.
Lemma later_keeps n : forall i (v r : list Z) j, (j < i)%nat -> forn n i (fun i v => y <- h i ;; wr v i y) v = Ok r -> nth j r 0%Z = nth j v 0%Z.
Proof.
  induction n as [|n IH]; intros i v r j Hj H; cbn [forn] in H; [injection H as <-; reflexivity|].
  apply bind_Ok in H. destruct H as (v' & H1 & H2). apply bind_Ok in H1. destruct H1 as (y & _ & H1).
  rewrite (IH (S i) v' r j ltac:(lia) H2). unfold wr in H1. destruct (Nat.ltb_spec i (length v)) as [L|]; [|discriminate]. injection H1 as <-.
  rewrite nth_upd by exact L. destruct (Nat.eqb_spec j i); [lia|reflexivity].
Qed.
Lemma both_loop n : forall i (v r : list Z) b, forn n i (fun i v => y <- h i ;; wr v i y) v = Ok r ->
  forn n i (fun i '(v, b) => y <- h i ;; v <- wr v i y ;; Ok (v, b && test i y)) (v, b) = Ok (r, b && forallb (fun j => test j (nth j r 0%Z)) (seq i n)).
Proof.
  induction n as [|n IH]; intros i v r b H; cbn [forn] in H |- *.
  - injection H as <-. cbn [seq forallb]. rewrite andb_true_r. reflexivity.
  - apply bind_Ok in H. destruct H as (v' & H1 & H2). apply bind_Ok in H1. destruct H1 as (y & E & H1). rewrite E. cbn [bind]. rewrite H1. cbn [bind].
    rewrite (IH (S i) v' r (b && test i y) H2). cbn [seq forallb]. rewrite (later_keeps n (S i) v' r i ltac:(lia) H2).
    unfold wr in H1. destruct (Nat.ltb_spec i (length v)) as [L|]; [|discriminate]. injection H1 as <-. rewrite nth_upd, Nat.eqb_refl by exact L.
    rewrite andb_assoc. reflexivity.
Qed.
End Loop.

Section Fl.
Variable F : fops.
Variable fin : D F -> Prop.
Variable val : D F -> R.
Hypothesis A : accurate F fin val.
Notation C := (D F * D F)%type.
Variable ztab : list C.
Hypothesis HZ : table_near F fin val ztab.

Lemma prod_apx lg (pa pb : zpv (2 ^ lg)) x y Ka Kb (o : list C) : (lg <= 10)%nat -> nrm (2 ^ lg) (cc (emb pa)) <= Ka -> nrm (2 ^ lg) (cc (emb pb)) <= Kb -> 1 <= Ka -> 1 <= Kb -> Ka * Kb <= 100000000000 ->
  apx F fin val (2 ^ lg) x (ev (emb pa)) (s2 lg * (INR lg * ep * Ka)) -> apx F fin val (2 ^ lg) y (ev (emb pb)) (s2 lg * (INR lg * ep * Kb)) -> length o = (2 ^ lg)%nat ->
  exists w, cpoly_mul F lg x y o = Ok w /\ let pp := Poly.pmul Z 0%Z Z.add Z.mul Z.opp pa pb : zpv (2 ^ lg) in
    apx F fin val (2 ^ lg) w (ev (emb pp)) (41 / 1000000000000000 * (s2 lg * s2 lg * (Ka * Kb))) /\ nrm (2 ^ lg) (ev (emb pp)) <= s2 lg * s2 lg * (Ka * Kb).
Proof.
  intros Hlg Na Nb Ga Gb Gab Hx Hy Lo.
  assert (Pab : 1 * 1 <= Ka * Kb) by (apply Rmult_le_compat; lra).
  assert (Ua : Ka <= 100000000000) by (assert (Ka * 1 <= Ka * Kb) by (apply Rmult_le_compat_l; lra); lra).
  assert (Ub : Kb <= 100000000000) by (assert (1 * Kb <= Ka * Kb) by (apply Rmult_le_compat_r; lra); lra).
  assert (P30 : 10000000000000000000000000000 <= 10 ^ 30) by (simpl; lra). assert (P37 : 10 ^ 30 <= 10 ^ 37) by (apply Rle_pow; [lra|lia]). assert (P40 : 10 ^ 37 <= big) by (apply Rle_pow; [lra|lia]).
  destruct (lg_ep lg Hlg) as [L1 L2]. pose proof (s2_32 lg Hlg) as S32. pose proof (s2_1 lg) as S1. set (r := s2 lg) in *. set (m := INR lg * ep) in *.
  assert (M1 : 0 <= m * Ka <= Ka) by (split; [apply Rmult_le_pos; lra|rewrite <- (Rmult_1_l Ka) at 2; apply Rmult_le_compat_r; lra]).
  assert (M2 : 0 <= m * Kb <= Kb) by (split; [apply Rmult_le_pos; lra|rewrite <- (Rmult_1_l Kb) at 2; apply Rmult_le_compat_r; lra]).
  assert (RA : 0 <= r * Ka <= 32 * 100000000000) by (split; [apply Rmult_le_pos|apply Rmult_le_compat]; lra).
  assert (RB : 0 <= r * Kb <= 32 * 100000000000) by (split; [apply Rmult_le_pos|apply Rmult_le_compat]; lra).
  assert (RA' : 0 <= r * (m * Ka) <= 32 * 100000000000) by (split; [apply Rmult_le_pos|apply Rmult_le_compat]; lra).
  assert (RB' : 0 <= r * (m * Kb) <= 32 * 100000000000) by (split; [apply Rmult_le_pos|apply Rmult_le_compat]; lra).
  assert (VB : forall i, (i < 2 ^ lg)%nat -> Cm (ev (emb pb) i) <= r * Kb).
  { intros i Hi. eapply Rle_trans; [apply (nrm_comp _ _ i Hi)|]. rewrite nrm_ev. apply Rmult_le_compat_l; [unfold r in *; lra|exact Nb]. }
  assert (VA : nrm (2 ^ lg) (ev (emb pa)) <= r * Ka) by (rewrite nrm_ev; apply Rmult_le_compat_l; [unfold r in *; lra|exact Na]).
  destruct (mul_apx F fin val A lg x y (ev (emb pa)) (ev (emb pb)) (r * (m * Ka)) (r * (m * Kb)) (r * Ka) (r * Kb) o Hlg Hx Hy) as (w & Ew & Hw); try lra; try assumption.
  exists w. split; [exact Ew|]. cbv zeta. set (P := r * r * (Ka * Kb)) in *.
  assert (RR : 1 * 1 <= r * r <= 32 * 32) by (split; apply Rmult_le_compat; lra).
  assert (PP : 1 * 1 <= P <= 1024 * 100000000000) by (unfold P; split; [apply Rmult_le_compat; lra|apply Rmult_le_compat; lra]).
  assert (T := tiny_1). assert (T0 := tiny_pos).
  assert (Eb : r * (m * Ka) * (r * Kb + r * (m * Kb)) + r * Ka * (r * (m * Kb)) + 3 * ulp * ((r * Ka + r * (m * Ka)) * (r * Kb + r * (m * Kb))) + 32 * tiny <= 41 / 1000000000000000 * P).
  { replace (r * (m * Ka) * (r * Kb + r * (m * Kb)) + r * Ka * (r * (m * Kb)) + 3 * ulp * ((r * Ka + r * (m * Ka)) * (r * Kb + r * (m * Kb))) + 32 * tiny)
      with ((m * (2 + m) + 3 * ulp * ((1 + m) * (1 + m))) * P + 32 * tiny) by (unfold P; ring).
    assert (m * (2 + m) <= 2 / 100000000000000 * (2 + 1 / 1000)) by (apply Rmult_le_compat; lra).
    assert ((1 + m) * (1 + m) <= (1 + 1 / 1000) * (1 + 1 / 1000)) by (apply Rmult_le_compat; lra).
    assert ((m * (2 + m) + 3 * ulp * ((1 + m) * (1 + m))) * P <= 405 / 10000000000000000 * P) by (apply Rmult_le_compat_r; [lra|rewrite ulp_val; lra]). lra. }
  apply (apx_weak _ _ _ _ _ _ _ _ Hw) in Eb. clear Hw. rename Eb into Hw.
  split.
  - apply (apx_ext _ _ _ _ _ (fun i => Cmul (ev (emb pa) i) (ev (emb pb) i))); [|exact Hw]. intros i Hi. rewrite emb_mul, ev_mul. reflexivity.
  - rewrite (nrm_ext _ _ (fun i => Cmul (ev (emb pa) i) (ev (emb pb) i))); [|intros i Hi; rewrite emb_mul, ev_mul; reflexivity].
    eapply Rle_trans; [apply (nrm_mul _ _ _ (r * Kb)); [lra|exact VB]|].
    apply Rle_trans with (r * Kb * (r * Ka)); [|right; unfold P; ring].
    first [apply Rmult_le_compat_l; lra | rewrite Rmult_comm; apply Rmult_le_compat_l; lra].
Qed.

Lemma check_ok lg f g F_ G_ : (lg <= 10)%nat -> length f = (2 ^ lg)%nat -> length g = (2 ^ lg)%nat -> length F_ = (2 ^ lg)%nat -> length G_ = (2 ^ lg)%nat ->
  (sqnorm f <= 300 * 300)%Z -> (sqnorm g <= 300 * 300)%Z -> (sqnorm F_ <= 100000 * 100000)%Z -> (sqnorm G_ <= 100000 * 100000)%Z ->
  exists b, check_ntru_eq F ztab lg f g F_ G_ = Ok b /\ (b = true <-> ntru (2 ^ lg) f g F_ G_).
Proof.
  intros Hlg Lf Lg LF LG Sf Sg SF SG.
  assert (Nf := nrm_list lg f 300 Lf ltac:(lia) Sf). assert (Ng := nrm_list lg g 300 Lg ltac:(lia) Sg).
  assert (NF := nrm_list lg F_ 100000 LF ltac:(lia) SF). assert (NG := nrm_list lg G_ 100000 LG ltac:(lia) SG).
  assert (P30 : 10000000000000000000000000000 <= 10 ^ 30) by (simpl; lra). assert (P37 : 10 ^ 30 <= 10 ^ 37) by (apply Rle_pow; [lra|lia]). assert (P40 : 10 ^ 37 <= big) by (apply Rle_pow; [lra|lia]).
  destruct (fft_ints F fin val A ztab HZ lg f 300 Hlg Lf (coeff_53 lg f 300 Nf ltac:(lra)) Nf ltac:(lra)) as (l1 & x1 & E1 & E5 & H1).
  destruct (fft_ints F fin val A ztab HZ lg g 300 Hlg Lg (coeff_53 lg g 300 Ng ltac:(lra)) Ng ltac:(lra)) as (l2 & x2 & E2 & E6 & H2).
  destruct (fft_ints F fin val A ztab HZ lg F_ 100000 Hlg LF (coeff_53 lg F_ 100000 NF ltac:(lra)) NF ltac:(lra)) as (l3 & x3 & E3 & E7 & H3).
  destruct (fft_ints F fin val A ztab HZ lg G_ 100000 Hlg LG (coeff_53 lg G_ 100000 NG ltac:(lra)) NG ltac:(lra)) as (l4 & x4 & E4 & E8 & H4).
  unfold check_ntru_eq. cbv zeta. rewrite E1, E2, E3, E4. cbn [bind]. rewrite E5, E6, E7, E8. cbn [bind].
  set (pf := ofl Z 0%Z (2 ^ lg) f) in *. set (pg := ofl Z 0%Z (2 ^ lg) g) in *. set (pF := ofl Z 0%Z (2 ^ lg) F_) in *. set (pG := ofl Z 0%Z (2 ^ lg) G_) in *.
  destruct (prod_apx lg pf pG x1 x4 300 100000 (fresh F (2 ^ lg)) Hlg Nf NG ltac:(lra) ltac:(lra) ltac:(lra) H1 H4 (repeat_length _ _)) as (w1 & W1 & U1 & V1).
  destruct (prod_apx lg pg pF x2 x3 300 100000 (fresh F (2 ^ lg)) Hlg Ng NF ltac:(lra) ltac:(lra) ltac:(lra) H2 H3 (repeat_length _ _)) as (w2 & W2 & U2 & V2).
  rewrite W1. cbn [bind]. rewrite W2. cbn [bind]. clear E1 E2 E3 E4 E5 E6 E7 E8 W1 W2.
  destruct (lg_ep lg Hlg) as [L1 L2]. pose proof (s2_32 lg Hlg) as S32. pose proof (s2_1 lg) as S1. set (r := s2 lg) in *. set (m := INR lg * ep) in *.
  set (P := r * r * (300 * 100000)) in *. assert (RR : 1 * 1 <= r * r <= 32 * 32) by (split; apply Rmult_le_compat; lra).
  assert (PP : 30000000 <= P <= 1024 * 30000000) by (unfold P; lra).
  set (p1 := Poly.pmul Z 0%Z Z.add Z.mul Z.opp pf pG : zpv (2 ^ lg)) in *. set (p2 := Poly.pmul Z 0%Z Z.add Z.mul Z.opp pg pF : zpv (2 ^ lg)) in *.
  destruct (sub_apx F fin val A lg w1 w2 (ev (emb p1)) (ev (emb p2)) _ _ P P (fresh F (2 ^ lg)) U1 U2 V1 V2) as (w & W & U); [lra|lra|apply repeat_length|].
  rewrite W. cbn [bind]. clear W.
  set (pd := Poly.psub Z 0%Z Z.sub p1 p2 : zpv (2 ^ lg)).
  assert (DE : forall i, (i < 2 ^ lg)%nat -> Csub (ev (emb p1) i) (ev (emb p2) i) = ev (emb pd) i) by (intros i Hi; unfold pd; rewrite emb_sub, ev_sub; reflexivity).
  assert (V : nrm (2 ^ lg) (ev (emb pd)) <= 2 * P).
  { rewrite (nrm_ext _ _ (fun i => Csub (ev (emb p1) i) (ev (emb p2) i))); [|intros i Hi; symmetry; apply DE, Hi]. eapply Rle_trans; [apply nrm_sub|]. lra. }
  rewrite (nrm_ext _ _ _ DE) in U.
  assert (U' : apx F fin val (2 ^ lg) w (ev (emb pd)) (1 / 10000000000000 * P)).
  { eapply apx_weak; [apply (apx_ext _ _ _ _ _ _ _ _ DE U)|].
    assert (ulp * (nrm (2 ^ lg) (ev (emb pd)) + (41 / 1000000000000000 * P + 41 / 1000000000000000 * P)) <= ulp * (3 * P)) by (apply Rmult_le_compat_l; [rewrite ulp_val|]; lra).
    rewrite ulp_val in *. lra. }
  destruct (ifft_err F fin val A ztab HZ lg w (emb pd) _ (2 * P) Hlg U') as (v & Ev & Hv); [exact V|lra|pose proof th_1; lra|].
  rewrite Ev. cbn [bind].
  assert (CB : nrm (2 ^ lg) (cc (emb pd)) <= 2 * (32 * (300 * 100000))).
  { apply (Rmult_le_reg_l r); [lra|]. unfold r at 1. rewrite <- nrm_ev. eapply Rle_trans; [exact V|]. unfold P.
    replace (2 * (r * r * (300 * 100000))) with (r * (2 * (r * (300 * 100000)))) by ring. apply Rmult_le_compat_l; lra. }
  assert (SM : forall i, (i < 2 ^ lg)%nat -> Rabs (IZR (pc Z 0%Z pd i)) <= 2 * (32 * (300 * 100000))).
  { intros i Hi. eapply Rle_trans; [|exact CB]. eapply Rle_trans; [|apply (nrm_comp _ _ i Hi)]. rewrite emb_c by exact Hi. apply (Cm_fst (Cz (pc Z 0%Z pd i))). }
  assert (Rd : round_poly F lg v (repeat 0%Z (2 ^ lg)) = Ok (pl Z _ pd)).
  { apply (round_apx F fin val A lg pd v _ (repeat 0%Z (2 ^ lg)) Hv); [|apply repeat_length|].
    - rewrite S_INR. replace ((1 / 10000000000000 * P + (INR lg + 1) * ep * (2 * P)) / s2 lg) with ((1 / 10000000000000 + 2 * (m + ep)) * (r * (300 * 100000))) by (unfold P, m; fold r; field; lra).
      assert ((1 / 10000000000000 + 2 * (m + ep)) * (r * (300 * 100000)) <= 2 / 10000000000000 * (32 * (300 * 100000))) by (apply Rmult_le_compat; unfold ep in *; lra). lra.
    - apply Forall_forall. intros z Hz. apply (In_nth _ _ 0%Z) in Hz. destruct Hz as (i & Hi & <-). rewrite pl_length in Hi. specialize (SM i Hi). unfold pc in SM.
      rewrite <- abs_IZR in SM. assert (B : (Z.abs (nth i (pl Z (2 ^ lg) pd) 0) <= 1920000000)%Z) by (apply le_IZR; lra). lia. }
  unfold round_poly in Rd.
  pose (h := fun i => x <- rd v i ;; to_i32 F (fround F (fst x))).
  assert (B1 : forall n i s, forn n i (fun i s => x <- rd v i ;; y <- to_i32 F (fround F (fst x)) ;; wr s i y) s = forn n i (fun i s => y <- h i ;; wr s i y) s).
  { intros n i s. apply forn_ext. intros j t _. unfold h. destruct (rd v j); reflexivity. }
  rewrite B1 in Rd.
  pose (test := fun (i : nat) (y : Z) => if Nat.eqb i 0 then (y =? Q)%Z else (y =? 0)%Z).
  rewrite (forn_ext _ _ _ (fun i '(s, b) => y <- h i ;; s <- wr s i y ;; Ok (s, b && test i y))).
  2:{ intros j [t b] _. unfold h, test. destruct (rd v j); reflexivity. }
  rewrite (both_loop h test _ _ _ _ true Rd). cbn [bind]. eexists. split; [reflexivity|].
  cbn [andb]. rewrite forallb_forall. unfold ntru. rewrite !negacyclic_zmul. fold pf pg pF pG. change (zmul pf pG) with p1. change (zmul pg pF) with p2.
  assert (K : forall k, (k < 2 ^ lg)%nat -> nth k (pl Z _ pd) 0%Z = (nth k (zpl p1) 0 - nth k (zpl p2) 0)%Z).
  { intros k Hk. unfold pd. apply (pc_sub Z 0%Z Z.sub _ p1 p2 k Hk). }
  split.
  - intros X k Hk. specialize (X k ltac:(apply in_seq; lia)). rewrite K in X by exact Hk. unfold test in X. destruct (Nat.eqb k 0); apply Z.eqb_eq in X; exact X.
  - intros X k Hk. apply in_seq in Hk. rewrite K by lia. specialize (X k ltac:(lia)). unfold test. destruct (Nat.eqb k 0); apply Z.eqb_eq; exact X.
Qed.
End Fl.
