(** P_fsafe.v -- ff_sampling in rounded arithmetic: weighted norms and the errors of split_fft. *)
From Verif Require Import Base Ring Poly Spec SpecR SpecF M_xform P_xform M_codec P_codec M_float M_exact P_exact M_samp M_fft M_ntru P_ntru M_tree P_brv P_cplx P_fft P_tree P_treex P_gs P_sign P_norm P_l2 P_err P_ferr P_near P_float P_fmerge P_fnorm P_fgs P_ftree.
From Coq Require Import Ring_theory Ring Lra Psatz.
Open Scope R_scope.

(** ** weighted norms *)
Definition wn (n : nat) (w : nat -> R) (v : nat -> Cx) : R := rn n (fun i => sqrt (w i) * Cm (v i)).
Lemma wn_pos n w v : 0 <= wn n w v. Proof. apply rn_pos. Qed.
Lemma wn_ext n w v v' : (forall i, (i < n)%nat -> v i = v' i) -> wn n w v = wn n w v'.
Proof. intros H. unfold wn, rn. f_equal. apply Rsigma_ext. intros i Hi. rewrite H by exact Hi. reflexivity. Qed.
Lemma wn_le n n' w w' v v' c : 0 <= c -> n = n' -> (forall i, (i < n)%nat -> sqrt (w i) * Cm (v i) <= c * (sqrt (w' i) * Cm (v' i))) -> wn n w v <= c * wn n' w' v'.
Proof.
  intros Hc <- H. unfold wn. rewrite <- rn_scal by exact Hc. apply rn_mono. intros i Hi. split; [apply Rmult_le_pos; [apply sqrt_pos|apply Cm_pos]|apply H, Hi].
Qed.
Lemma wn_tri n w u v : wn n w (fun i => Cadd (u i) (v i)) <= wn n w u + wn n w v.
Proof.
  unfold wn. eapply Rle_trans; [|apply rn_tri]. apply rn_mono. intros i Hi. assert (S := sqrt_pos (w i)). split; [apply Rmult_le_pos; [exact S|apply Cm_pos]|].
  rewrite <- Rmult_plus_distr_l. apply Rmult_le_compat_l; [exact S|apply Cm_tri].
Qed.
Lemma wn_sq n w v : (forall i, (i < n)%nat -> 0 <= w i) -> wn n w v * wn n w v = Rsigma n (fun i => w i * mod2 (v i)).
Proof.
  intros H. unfold wn. rewrite rn_sq. apply Rsigma_ext. intros i Hi. rewrite <- Cm_sq. rewrite <- (sqrt_sqrt (w i)) at 3 by (apply H, Hi). ring.
Qed.
Lemma sqrt_in w : 87 / 10 <= w <= 17400000 -> 29495 / 10000 <= sqrt w <= 4172.
Proof. intros H. split; [apply Rle_trans with (sqrt (29495 / 10000 * (29495 / 10000))); [rewrite sqrt_square by lra; lra|apply sqrt_le_1_alt; lra]|]. apply Rle_trans with (sqrt (4172 * 4172)); [apply sqrt_le_1_alt; lra|rewrite sqrt_square; lra]. Qed.
Lemma wn_nrm n w v : inr n w -> wn n w v <= 4172 * nrm n v.
Proof.
  intros H. unfold wn, nrm. rewrite <- rn_scal by lra. apply rn_mono. intros i Hi. destruct (sqrt_in _ (H i Hi)). assert (C := Cm_pos (v i)). split; [apply Rmult_le_pos; lra|apply Rmult_le_compat_r; lra].
Qed.
Lemma nrm_wn n w v : inr n w -> nrm n v <= 34 / 100 * wn n w v.
Proof.
  intros H. unfold wn, nrm. rewrite <- rn_scal by lra. apply rn_mono. intros i Hi. destruct (sqrt_in _ (H i Hi)). assert (C := Cm_pos (v i)). split; [exact C|].
  assert (29495 / 10000 * Cm (v i) <= sqrt (w i) * Cm (v i)) by (apply Rmult_le_compat_r; lra). lra.
Qed.

(** ** the quadratic form of a node *)
Lemma node_form h dv (r : cpv (2 ^ S (S h))) : inr (2 ^ S (S h)) dv ->
  wn (2 ^ S (S h)) dv (ev r) * wn (2 ^ S (S h)) dv (ev r) =
  2 * (wn (2 ^ S h) (am2 dv) (fun i => Cadd (@ev (S h) (pev Cx Czero r) i) (Cmul (@ev (S h) (pod Cx Czero r) i) (lex h dv i))) * wn (2 ^ S h) (am2 dv) (fun i => Cadd (@ev (S h) (pev Cx Czero r) i) (Cmul (@ev (S h) (pod Cx Czero r) i) (lex h dv i)))
     + wn (2 ^ S h) (hm2 dv) (@ev (S h) (pod Cx Czero r)) * wn (2 ^ S h) (hm2 dv) (@ev (S h) (pod Cx Czero r))).
Proof.
  intros H. assert (E2 : (2 ^ S (S h) = 2 * 2 ^ S h)%nat) by reflexivity. assert (P2 := pow2_pos (S h)).
  assert (H' : inr (2 * 2 ^ S h) dv) by exact H. assert (Ha := inr_am _ _ H'). assert (Hb := inr_hm _ _ H').
  assert (WP : forall n w, inr n w -> forall i, (i < n)%nat -> 0 <= w i) by (intros n w I i Hi; specialize (I i Hi); lra).
  rewrite (wn_sq _ dv _ (WP _ _ H)), (wn_sq _ (am2 dv) _ (WP _ _ Ha)), (wn_sq _ (hm2 dv) _ (WP _ _ Hb)).
  replace (2 ^ S (S h))%nat with (2 ^ S h * (2 * 1))%nat at 1 by lia. rewrite Rsigma_blocks, <- Rsigma_add, <- Rsigma_mul. apply Rsigma_ext. intros i Hi. cbn [Rsigma].
  replace (i * (2 * 1) + 0)%nat with (2 * i)%nat by lia. replace (i * (2 * 1) + 1 + 0)%nat with (2 * i + 1)%nat by lia.
  rewrite ev_even, ev_odd. assert (D0 := H' (2 * i)%nat ltac:(lia)). assert (D1 := H' (2 * i + 1)%nat ltac:(lia)).
  assert (SI := step_identity (dv (2 * i)%nat) (dv (2 * i + 1)%nat) (am2 dv i) (@ev (S h) (pev Cx Czero r) i) (@ev (S h) (pod Cx Czero r) i) (pt (S (S h)) (2 * i)) ltac:(lra) ltac:(lra) eq_refl (sq_pt _ _)).
  unfold lex. rewrite (hm2_val (2 ^ S h)) by (assumption || (intros j Hj; specialize (H' j Hj); lra)). unfold P_fft.sq, mod2 in *. lra.
Qed.
Lemma lex_1 h dv i : inr (2 ^ S (S h)) dv -> (i < 2 ^ S h)%nat -> Cm (lex h dv i) <= 1.
Proof.
  intros H Hi. unfold lex. rewrite Cm_mul, Cm_pt, Rmult_1_r. unfold Cof. rewrite Cm_re. assert (E2 : (2 ^ S (S h) = 2 * 2 ^ S h)%nat) by reflexivity.
  assert (D0 := H (2 * i)%nat ltac:(lia)). assert (D1 := H (2 * i + 1)%nat ltac:(lia)). unfold am2. set (x := dv (2 * i)%nat) in *. set (y := dv (2 * i + 1)%nat) in *.
  unfold Rdiv. rewrite Rabs_mult, (Rabs_pos_eq (/ _)) by (left; apply Rinv_0_lt_compat; lra). apply Rmult_le_reg_r with (2 * ((x + y) * / 2)); [lra|]. rewrite Rmult_assoc, Rinv_l, Rmult_1_r by lra. apply Rabs_le. lra.
Qed.

Section Spl.
Variable F : fops.
Variable fin : D F -> Prop.
Variable val : D F -> R.
Hypothesis A : accurate F fin val.
Notation C := (D F * D F)%type.
Notation d := (c0 F).
Notation cv := (cv F val).
Notation X := (X F val).
Notation apx := (apx F fin val).
Notation vfin := (vfin F fin).
Notation cfin := (cfin F fin).
Variable ztab : list C.
Hypothesis HZ : table_near F fin val ztab.

(** half of a complex number *)
Lemma chalf_point (s : C) e x : cfin s -> Cm x <= 1000000000000 -> 0 <= e <= 1 -> Cm (Csub (cv s) x) <= e ->
  cfin (cscal F s (half F)) /\ Cm (Csub (cv (cscal F s (half F))) (Cscal x (1 / 2))) <= 51 / 100 * e + 26 / 10 * ulp * Cm x + 2 * tiny.
Proof.
  intros Fs Bx He Hs. destruct (half_apx F fin val A) as [H1 H2]. set (c := half F) in *. assert (U := ulp_val). assert (P := Cm_pos x). assert (Ps := Cm_pos (cv s)). assert (T := tiny_pos).
  assert (Hc : 1 / 2 - 2 * ulp <= val c <= 1 / 2 + 2 * ulp) by (apply Rabs_le_inv in H2; lra).
  assert (Bs : Cm (cv s) <= Cm x + e) by (pose proof (Cm_le_add (cv s) x); lra).
  assert (Bc : Rabs (val c) <= 1 / 2 + 2 * ulp) by (apply Rabs_le; lra).
  destruct (cscal_err F fin val A s c Fs H1) as [G1 G2]; [apply huge_40; eapply Rle_trans; [exact Bs|]; apply Rle_trans with (10 ^ 13); [simpl; lra|apply Rle_pow; [lra|lia]]|apply big_h; lra|].
  split; [exact G1|]. assert (Cs : forall u t, Cm (Cscal u t) = Cm u * Rabs t).
  { intros u t. unfold Cm. replace (mod2 (Cscal u t)) with (mod2 u * Rsqr t) by (unfold mod2, Cscal, Rsqr; cbn [fst snd]; ring). rewrite sqrt_mult, sqrt_Rsqr_abs; [reflexivity|apply mod2_pos|apply Rle_0_sqr]. }
  assert (T1 : Cm (Csub (cv (cscal F s c)) (Cscal x (1 / 2))) <= Cm (Csub (cv (cscal F s c)) (Cscal (cv s) (val c))) + (Cm (Cscal (Csub (cv s) x) (val c)) + Cm (Cscal x (val c - 1 / 2)))).
  { eapply Rle_trans; [|apply Rplus_le_compat_l, Cm_tri]. eapply Rle_trans; [|apply Cm_tri]. right. f_equal. apply Cx_eq; cx; unfold Cscal; cbn [fst snd]; ring. }
  rewrite !Cs in T1.
  assert (Q1 : Cm (cv s) * Rabs (val c) <= (Cm x + e) * (1 / 2 + 2 * ulp)) by (apply Rmult_le_compat; try apply Rabs_pos; assumption).
  assert (Q2 : Cm (Csub (cv s) x) * Rabs (val c) <= e * (1 / 2 + 2 * ulp)) by (apply Rmult_le_compat; try apply Rabs_pos; try apply Cm_pos; assumption).
  assert (Q3 : Cm x * Rabs (val c - 1 / 2) <= Cm x * (2 * ulp)) by (apply Rmult_le_compat_l; assumption).
  rewrite U in *. lra.
Qed.
Lemma spl_point (x y z' : C) z : cfin x -> cfin y -> cfin z' -> Cm z = 1 -> Cm (Csub (cv z') z) <= 15 / 10000000000000000 -> Cm (cv x) <= 100000000000 -> Cm (cv y) <= 100000000000 ->
  let a := cscal F (cadd F x y) (half F) in let b := fcmul F (cscal F (csub F x y) (half F)) (cconj F z') in
  cfin a /\ cfin b /\ Cm (Csub (cv a) (Cscal (Cadd (cv x) (cv y)) (1 / 2))) <= 12 * ulp * (Cm (cv x) + Cm (cv y)) + 4 * tiny /\
  Cm (Csub (cv b) (Cmul (Cscal (Csub (cv x) (cv y)) (1 / 2)) (Cconj z))) <= 12 * ulp * (Cm (cv x) + Cm (cv y)) + 4 * tiny.
Proof.
  intros Fx Fy Fz Z1 Z2 Bx By a b. assert (U := ulp_val). assert (Px := Cm_pos (cv x)). assert (Py := Cm_pos (cv y)). assert (T := tiny_pos). assert (Tn := tiny_30).
  destruct (cadd_err F fin val A x y Fx Fy) as [A1 A2]; [apply big_h; lra|apply big_h; lra|]. destruct (csub_err F fin val A x y Fx Fy) as [B1 B2]; [apply big_h; lra|apply big_h; lra|].
  assert (N1 := Cm_tri (cv x) (cv y)). assert (N2 := Cm_sub (cv x) (cv y)). assert (P1 := Cm_pos (Cadd (cv x) (cv y))). assert (P2 := Cm_pos (Csub (cv x) (cv y))).
  destruct (chalf_point (cadd F x y) (ulp * Cm (Cadd (cv x) (cv y))) (Cadd (cv x) (cv y)) A1) as [A3 A4]; [lra|rewrite U in *; lra|exact A2|].
  destruct (chalf_point (csub F x y) (ulp * Cm (Csub (cv x) (cv y))) (Csub (cv x) (cv y)) B1) as [B3 B4]; [lra|rewrite U in *; lra|exact B2|].
  fold a in A3, A4. set (m := cscal F (csub F x y) (half F)) in *. set (w := Cscal (Csub (cv x) (cv y)) (1 / 2)) in *.
  assert (Ew : Cm w = Cm (Csub (cv x) (cv y)) / 2).
  { unfold w, Cm. replace (mod2 (Cscal (Csub (cv x) (cv y)) (1 / 2))) with (mod2 (Csub (cv x) (cv y)) * Rsqr (1 / 2)) by (unfold mod2, Cscal, Rsqr; cbn [fst snd]; ring).
    rewrite sqrt_mult, sqrt_Rsqr; [lra|lra|apply mod2_pos|apply Rle_0_sqr]. }
  assert (Bm : Cm (cv m) <= Cm w + (51 / 100 * (ulp * Cm (Csub (cv x) (cv y))) + 26 / 10 * ulp * Cm (Csub (cv x) (cv y)) + 2 * tiny)) by (pose proof (Cm_le_add (cv m) w); lra).
  destruct (cconj_ok F fin val A z' Fz) as [Fz' Vz'].
  assert (Zc : Cm (Csub (cv (cconj F z')) (Cconj z)) <= 15 / 10000000000000000). { rewrite Vz'. replace (Csub (Cconj (cv z')) (Cconj z)) with (Cconj (Csub (cv z') z)) by (apply Cx_eq; cx; ring). rewrite Cm_conj. exact Z2. }
  assert (Zn : Cm (cv (cconj F z')) <= 1001 / 1000). { rewrite Vz', Cm_conj. pose proof (Cm_le_add (cv z') z). lra. }
  destruct (cmul_err F fin val A m (cconj F z') B3 Fz') as [C1 C2]; [apply big_h; rewrite U in *; lra|apply big_h; lra|]. fold b in C1, C2.
  split; [exact A3|]. split; [exact C1|]. split; [rewrite U in *; lra|].
  assert (T1 : Cm (Csub (cv b) (Cmul w (Cconj z))) <= Cm (Csub (cv b) (Cmul (cv m) (cv (cconj F z')))) + (Cm (Csub (cv m) w) * Cm (cv (cconj F z')) + Cm w * Cm (Csub (cv (cconj F z')) (Cconj z)))).
  { rewrite <- !Cm_mul. eapply Rle_trans; [|apply Rplus_le_compat_l, Cm_tri]. eapply Rle_trans; [|apply Cm_tri]. right. f_equal. apply Cx_eq; cx; ring. }
  set (e := 51 / 100 * (ulp * Cm (Csub (cv x) (cv y))) + 26 / 10 * ulp * Cm (Csub (cv x) (cv y)) + 2 * tiny) in *. assert (Pw := Cm_pos w). assert (Pm := Cm_pos (cv m)). assert (Pe := Cm_pos (Csub (cv m) w)).
  assert (Q1 : Cm (cv m) * Cm (cv (cconj F z')) <= (Cm w + e) * (1001 / 1000)) by (apply Rmult_le_compat; try apply Cm_pos; assumption).
  assert (Q2 : Cm (Csub (cv m) w) * Cm (cv (cconj F z')) <= e * (1001 / 1000)) by (apply Rmult_le_compat; try apply Cm_pos; assumption).
  assert (Q3 : Cm w * Cm (Csub (cv (cconj F z')) (Cconj z)) <= Cm w * (15 / 10000000000000000)) by (apply Rmult_le_compat_l; assumption).
  unfold e in *. rewrite Ew in *. rewrite U in *. lra.
Qed.

(** split_fft on a vector with polynomial q: the halves are the vectors of a polynomial q' near q *)
Lemma split_poly h (t o0 o1 : list C) (q : cpv (2 ^ S h)) K : (S h <= 10)%nat -> vfin (2 ^ S h) t -> (forall i, (i < 2 ^ S h)%nat -> X t i = ev q i) ->
  nrm (2 ^ S h) (ev q) <= K -> 1 <= K <= 100000000000 -> length o0 = (2 ^ h)%nat -> length o1 = (2 ^ h)%nat ->
  exists u0 u1 (q' : cpv (2 ^ S h)), split_fft F ztab (S h) t o0 o1 = Ok (u0, u1) /\ vfin (2 ^ h) u0 /\ vfin (2 ^ h) u1 /\
    (forall i, (i < 2 ^ h)%nat -> X u0 i = @ev h (pev Cx Czero q') i) /\ (forall i, (i < 2 ^ h)%nat -> X u1 i = @ev h (pod Cx Czero q') i) /\
    nrm (2 ^ S h) (fun i => Csub (ev q' i) (ev q i)) <= 1 / 100000000000000 * K.
Proof.
  intros Hh [Lt Ft] Et NK HK L0 L1. assert (Hp : (2 ^ S h <= 1024)%nat) by (apply pow_1024; exact Hh). assert (E2 : (2 ^ S h = 2 * 2 ^ h)%nat) by reflexivity. set (m := (2 ^ h)%nat) in *.
  set (A0 := fun i => cscal F (cadd F (nth (2 * i) t d) (nth (2 * i + 1) t d)) (half F)).
  set (A1 := fun i => fcmul F (cscal F (csub F (nth (2 * i) t d) (nth (2 * i + 1) t d)) (half F)) (cconj F (nth (m + i) ztab d))).
  assert (ES : split_fft F ztab (S h) t o0 o1 = Ok (tab m A0, tab m A1)).
  { unfold split_fft. rewrite half_pow. fold m. refine (fill2_ok d m _ o0 o1 _ _ L0 L1 _). intros i v0 v1 Hi M0 M1 _ _. assert (Lz : length ztab = 1024%nat) by apply HZ.
    rewrite (rd_Ok ztab (m + i) d) by lia. cbn [bind]. rewrite (rd_Ok t (2 * i) d) by lia. cbn [bind]. rewrite (rd_Ok t (2 * i + 1) d) by lia. cbn [bind]. rewrite wr_Ok by lia. cbn [bind]. rewrite wr_Ok by lia. reflexivity. }
  assert (BX : forall i, (i < 2 * m)%nat -> Cm (cv (nth i t d)) <= 100000000000).
  { intros i Hi. change (Cm (X t i) <= 100000000000). rewrite Et by lia. eapply Rle_trans; [apply (nrm_comp (2 * m) (ev q) i Hi)|]. unfold m. change (nrm (2 ^ S h) (ev q) <= 100000000000). lra. }
  assert (Pt : forall i, (i < m)%nat -> cfin (A0 i) /\ cfin (A1 i) /\ Cm (Csub (cv (A0 i)) (@ev h (pev Cx Czero q) i)) <= 12 * ulp * (Cm (ev q (2 * i)) + Cm (ev q (2 * i + 1))) + 4 * tiny /\
     Cm (Csub (cv (A1 i)) (@ev h (pod Cx Czero q) i)) <= 12 * ulp * (Cm (ev q (2 * i)) + Cm (ev q (2 * i + 1))) + 4 * tiny).
  { intros i Hi. destruct (tab_entry F fin val ztab HZ (m + i)) as [Z1 [Z2 Z3]]; [lia|]. 
    destruct (spl_point (nth (2 * i) t d) (nth (2 * i + 1) t d) (nth (m + i) ztab d) (nth (m + i) exact_table Czero)) as (G1 & G2 & G3 & G4); try assumption; try (apply Ft; lia); try (apply BX; lia).
    change (cv (nth (2 * i) t d)) with (X t (2 * i)) in G3, G4. change (cv (nth (2 * i + 1) t d)) with (X t (2 * i + 1)) in G3, G4. rewrite !Et in G3, G4 by lia.
    assert (Tp := table_pt h i Hh Hi). fold m in Tp. rewrite Tp in G4.
    split; [exact G1|]. split; [exact G2|]. rewrite ev_even, ev_odd in *. set (e := @ev h (pev Cx Czero q) i) in *. set (o := @ev h (pod Cx Czero q) i) in *. set (z := pt (S h) (2 * i)) in *. split.
    - eapply Rle_trans; [|exact G3]. right. f_equal. f_equal. apply Cx_eq; unfold Cscal; cx; field.
    - eapply Rle_trans; [|exact G4]. right. f_equal. f_equal. assert (Q := sq_pt (S h) (2 * i)). fold z in Q. revert Q. generalize z e o. intros [a b] [c e'] [f g] Q. unfold P_fft.sq in Q. cbn [fst snd] in Q.
      apply Cx_eq; unfold Cscal; cx.
      + transitivity (f * (a * a + b * b)); [rewrite Q; ring|field].
      + transitivity (g * (a * a + b * b)); [rewrite Q; ring|field]. }
  destruct (ft_surj h (tab m (fun i => cv (A0 i))) ltac:(lia) (tab_length _ _)) as [r0 Er0]. destruct (ft_surj h (tab m (fun i => cv (A1 i))) ltac:(lia) (tab_length _ _)) as [r1 Er1].
  assert (V0 : forall i, (i < m)%nat -> ev r0 i = cv (A0 i)). { intros i Hi. rewrite <- (nth_ft h r0 i Hi), <- Er0. exact (nth_tab m (fun i => cv (A0 i)) i Czero Hi). }
  assert (V1 : forall i, (i < m)%nat -> ev r1 i = cv (A1 i)). { intros i Hi. rewrite <- (nth_ft h r1 i Hi), <- Er1. exact (nth_tab m (fun i => cv (A1 i)) i Czero Hi). }
  exists (tab m A0), (tab m A1), (pint r0 r1). split; [exact ES|].
  split; [split; [apply tab_length|intros i Hi; rewrite nth_tab by exact Hi; apply Pt, Hi]|]. split; [split; [apply tab_length|intros i Hi; rewrite nth_tab by exact Hi; apply Pt, Hi]|].
  split; [intros i Hi; rewrite pev_pint, V0 by exact Hi; unfold P_err.X; rewrite nth_tab by exact Hi; reflexivity|].
  split; [intros i Hi; rewrite pod_pint, V1 by exact Hi; unfold P_err.X; rewrite nth_tab by exact Hi; reflexivity|].
  set (e0 := cpsub r0 (pev Cx Czero q)). set (e1 := cpsub r1 (pod Cx Czero q)).
  assert (EE : forall p, (p < 2 ^ S h)%nat -> Csub (@ev (S h) (pint r0 r1) p) (ev q p) = @ev (S h) (pint e0 e1) p).
  { intros p Hpp. assert (exists i, (p = 2 * i \/ p = 2 * i + 1)%nat) as [i [->| ->]] by (exists (p / 2)%nat; pose proof (Nat.div_mod p 2); pose proof (Nat.mod_upper_bound p 2); lia).
    - etransitivity; [apply (f_equal2 Csub); apply (ev_even h)|]. symmetry. etransitivity; [apply (ev_even h)|]. rewrite !pev_pint, !pod_pint. unfold e0, e1. rewrite !ev_sub.
      generalize (ev r0 i) (ev r1 i) (@ev h (pev Cx Czero q) i) (@ev h (pod Cx Czero q) i) (pt (S h) (2 * i)). intros [? ?] [? ?] [? ?] [? ?] [? ?]. apply Cx_eq; cx; ring.
    - etransitivity; [apply (f_equal2 Csub); apply (ev_odd h)|]. symmetry. etransitivity; [apply (ev_odd h)|]. rewrite !pev_pint, !pod_pint. unfold e0, e1. rewrite !ev_sub.
      generalize (ev r0 i) (ev r1 i) (@ev h (pev Cx Czero q) i) (@ev h (pod Cx Czero q) i) (pt (S h) (2 * i)). intros [? ?] [? ?] [? ?] [? ?] [? ?]. apply Cx_eq; cx; ring. }
  rewrite (nrm_ext _ _ _ EE), (merge_norm F fin val ztab HZ h e0 e1 Hh). fold m.
  set (y := fun i => (Cm (ev q (2 * i)) + Cm (ev q (2 * i + 1)), 0)).
  assert (Cy : forall i, Cm (y i) = Cm (ev q (2 * i)) + Cm (ev q (2 * i + 1))). { intros i. unfold y. rewrite Cm_re, Rabs_pos_eq; [reflexivity|]. pose proof (Cm_pos (ev q (2 * i))). pose proof (Cm_pos (ev q (2 * i + 1))). lra. }
  assert (Ny : nrm m y <= 2 * K).
  { assert (IL := il_norm m (fun i => ev q (2 * i)) (fun i => ev q (2 * i + 1))).
    assert (IE : nrm (2 * m) (il (fun i => ev q (2 * i)) (fun i => ev q (2 * i + 1))) = nrm (2 * m) (ev q)).
    { apply nrm_ext. intros p Hpp. unfold il. pose proof (Nat.div_mod p 2 ltac:(lia)). pose proof (Nat.mod_upper_bound p 2 ltac:(lia)). destruct (Nat.ltb_spec (p mod 2) 1); f_equal; lia. }
    rewrite IE in IL. fold m in NK. assert (P0 := nrm_pos (2 * m) (ev q)). assert (NN : nrm (2 * m) (ev q) <= K) by exact NK. 
    assert (Pa := nrm_pos m (fun i => ev q (2 * i))). assert (Pb := nrm_pos m (fun i => ev q (2 * i + 1))).
    assert (Ha : nrm m (fun i => ev q (2 * i)) <= K). { apply sq_le; [lra|]. assert (nrm (2 * m) (ev q) * nrm (2 * m) (ev q) <= K * K) by (apply Rmult_le_compat; lra). pose proof (Rle_0_sqr (nrm m (fun i => ev q (2 * i + 1)))) as Q. unfold Rsqr in Q. lra. }
    assert (Hb : nrm m (fun i => ev q (2 * i + 1)) <= K). { apply sq_le; [lra|]. assert (nrm (2 * m) (ev q) * nrm (2 * m) (ev q) <= K * K) by (apply Rmult_le_compat; lra). pose proof (Rle_0_sqr (nrm m (fun i => ev q (2 * i)))) as Q. unfold Rsqr in Q. lra. }
    unfold nrm at 1. eapply Rle_trans; [apply (rn_mono m _ (fun i => Cm (ev q (2 * i)) + Cm (ev q (2 * i + 1)))); intros i Hi; rewrite Cy; pose proof (Cm_pos (ev q (2 * i))); pose proof (Cm_pos (ev q (2 * i + 1))); lra|].
    eapply Rle_trans; [apply rn_tri|]. unfold nrm in Ha, Hb. lra. }
  assert (T := tiny_pos). assert (Tn := tiny_30). assert (U := ulp_val). assert (Sn := sqrt_1024 m ltac:(lia)). assert (Sn0 := sqrt_pos (INR m)).
  assert (B : forall (r : cpv (2 ^ h)), (forall i, (i < m)%nat -> Cm (ev r i) <= 12 * ulp * (Cm (ev q (2 * i)) + Cm (ev q (2 * i + 1))) + 4 * tiny) -> nrm m (ev r) <= 4 / 1000000000000000 * K).
  { intros r Hr. eapply Rle_trans; [apply (nrm_bound m _ y (12 * ulp) (4 * tiny)); [lra|lra|]; intros i Hi; rewrite Cy; apply Hr, Hi|].
    assert (12 * ulp * nrm m y <= 12 * ulp * (2 * K)) by (apply Rmult_le_compat_l; lra). assert (4 * tiny * sqrt (INR m) <= 4 * tiny * 32) by (apply Rmult_le_compat_l; lra). rewrite U in *. lra. }
  assert (B0 : nrm m (ev e0) <= 4 / 1000000000000000 * K) by (apply B; intros i Hi; unfold e0; rewrite ev_sub, V0 by exact Hi; apply Pt, Hi).
  assert (B1 : nrm m (ev e1) <= 4 / 1000000000000000 * K) by (apply B; intros i Hi; unfold e1; rewrite ev_sub, V1 by exact Hi; apply Pt, Hi).
  assert (P0 := nrm_pos m (ev e0)). assert (P1 := nrm_pos m (ev e1)). set (Z := 4 / 1000000000000000 * K) in *.
  apply Rle_trans with (sqrt 2 * sqrt (2 * (Z * Z))).
  - apply Rmult_le_compat_l; [apply sqrt_pos|]. apply sqrt_le_1_alt. assert (nrm m (ev e0) * nrm m (ev e0) <= Z * Z) by (apply Rmult_le_compat; lra). assert (nrm m (ev e1) * nrm m (ev e1) <= Z * Z) by (apply Rmult_le_compat; lra). lra.
  - assert (PZ : 0 <= Z) by lra. rewrite sqrt_mult, sqrt_square by (try lra; apply Rmult_le_pos; lra). rewrite <- Rmult_assoc, sqrt2_sq. unfold Z. lra.
Qed.

End Spl.
