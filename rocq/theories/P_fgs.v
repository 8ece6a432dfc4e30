(** P_fgs.v -- the Gram-Schmidt test of key generation in rounded arithmetic. *)
From Verif Require Import Base Ring Poly Spec SpecR SpecF M_xform P_xform M_codec P_codec M_float M_exact P_exact M_samp M_fft M_ntru P_ntru M_tree P_brv P_cplx P_fft P_tree P_treex P_gs P_sign P_l2 P_err P_ferr P_near P_float P_fmerge P_fnorm P_signx P_fsign P_fsv.
From Coq Require Import Ring_theory Ring Lra Psatz.
Open Scope R_scope.

Section Gs.
Variable F : fops.
Variable fin : D F -> Prop.
Variable val : D F -> R.
Hypothesis A : accurate F fin val.
Notation C := (D F * D F)%type.
Notation d := (c0 F).
Notation cv := (cv F val).
Notation X := (X F val).
Notation apx := (apx F fin val).
Notation vfin := (vfin F fin).
Notation cfin := (cfin F fin).
Notation comp := (computed F fin).

(** ** the norm of the integer coefficients *)
Definition ints (lg : nat) (a : list Z) : list (D F) := tab (2 ^ lg) (fun i => fofz F (nth i a 0%Z)).
Lemma normd_apx lg (a : list Z) : (lg <= 10)%nat -> length a = (2 ^ lg)%nat -> (forall i, (i < 2 ^ lg)%nat -> Z.abs (nth i a 0%Z) <= 200)%Z ->
  exists r, sqrd_norm_d F lg (ints lg a) = Ok r /\ fin r /\ Rabs (val r - IZR (sqnorm a)) <= 1 / 10000 /\ 0 <= IZR (sqnorm a) <= 40960000.
Proof.
  intros Hlg La Ba. assert (B := pow_1024 lg Hlg). assert (T := tiny_pos). assert (T1 := tiny_1).
  set (S := fun j => Rsigma j (fun i => IZR (nth i a 0%Z) * IZR (nth i a 0%Z))).
  assert (Sq : forall i, (i < 2 ^ lg)%nat -> 0 <= IZR (nth i a 0%Z) * IZR (nth i a 0%Z) <= 40000).
  { intros i Hi. rewrite <- mult_IZR. split; [apply (IZR_le 0)|apply IZR_le]; specialize (Ba i Hi); nia. }
  assert (S0 : forall j, (j <= 2 ^ lg)%nat -> 0 <= S j <= 40000 * INR j).
  { induction j as [|j IH]; intros Hj; [unfold S; simpl; lra|]. specialize (IH ltac:(lia)). specialize (Sq j ltac:(lia)). rewrite S_INR. change (S (Datatypes.S j)) with (S j + IZR (nth j a 0%Z) * IZR (nth j a 0%Z)). lra. }
  assert (Sn : S (2 ^ lg)%nat = IZR (sqnorm a)).
  { rewrite <- (int_norm lg a La). unfold S. etransitivity; [apply Rsigma_sum|]. apply rsum_ext. intros j Hj. rewrite !nth_tab by exact Hj. reflexivity. }
  assert (H26 : 100000000 <= huge) by (apply huge_40; simpl; lra).
  destruct (forn_inv (fun j r => fin r /\ Rabs (val r - S j) <= INR j * (3 * ulp * 40960000) + INR j * (2 * tiny)) (2 ^ lg) 0
    (fun i r => x <- rd (ints lg a) i ;; Ok (fadd F r (fmul F x x))) (fofz F 0)) as (r & E & H1 & H2).
  - destruct (acc_int _ _ _ A 0 ltac:(simpl; lia)) as [H1 H2]. split; [exact H1|]. rewrite H2. unfold S. cbn [Rsigma INR]. rewrite Rminus_0_r, Rabs_R0. lra.
  - intros j r Hj [Fr Hr]. cbn [Nat.add] in Hj. assert (Hj' : (j < 2 ^ lg)%nat) by lia. rewrite (rd_Ok _ j (fofz F 0)) by (unfold ints; rewrite tab_length; exact Hj'). unfold ints at 1. rewrite nth_tab by exact Hj'. cbn [bind]. eexists. split; [reflexivity|].
    destruct (acc_int _ _ _ A (nth j a 0%Z)) as [Fx Ex]; [specialize (Ba j Hj'); change (2 ^ 53)%Z with 9007199254740992%Z; lia|].
    assert (Bx : Rabs (IZR (nth j a 0%Z)) <= 200) by (rewrite <- abs_IZR; apply IZR_le, Ba, Hj').
    specialize (Sq j Hj'). assert (SJ := S0 j ltac:(lia)). assert (SJ1 := S0 (Datatypes.S j) ltac:(lia)). change (S (Datatypes.S j)) with (S j + IZR (nth j a 0%Z) * IZR (nth j a 0%Z)) in *. set (x := IZR (nth j a 0%Z)) in *.
    assert (JB : 0 <= INR j <= 1024) by (split; [apply pos_INR|]; replace 1024 with (INR 1024) by (rewrite INR_IZR_INZ; simpl; lra); apply le_INR; lia).
    destruct (acc_mul _ _ _ A _ _ Fx Fx) as [Fp Hp]; [rewrite Ex; lra|rewrite Ex; lra|]. rewrite Ex in Hp. rewrite (Rabs_pos_eq (x * x)) in Hp by lra.
    set (p := fmul F (fofz F (nth j a 0%Z)) (fofz F (nth j a 0%Z))) in *.
    assert (Q1 : 0 <= INR j * (3 * ulp * 40960000) <= 1024 * (3 * ulp * 40960000)) by (rewrite ulp_val; split; [apply Rmult_le_pos; lra|apply Rmult_le_compat_r; lra]).
    assert (Q3 : 0 <= INR j * (2 * tiny) <= 1024 * (2 * tiny)) by (split; [apply Rmult_le_pos; lra|apply Rmult_le_compat_r; lra]).
    assert (Up : Rabs (val p - x * x) <= 1 / 100) by (rewrite ulp_val in Hp; lra). assert (Ur : Rabs (val r - S j) <= 1 / 100) by (rewrite ulp_val in *; lra).
    apply Rabs_le_inv in Up. apply Rabs_le_inv in Ur.
    assert (SB : S j + x * x <= 40960000) by (assert (INR (Datatypes.S j) <= 1024) by (replace 1024 with (INR 1024) by (rewrite INR_IZR_INZ; simpl; lra); apply le_INR; lia); lra).
    destruct (acc_add _ _ _ A r p Fr Fp) as [Fa Ha]; [apply Rabs_le; lra|apply Rabs_le; lra|]. split; [exact Fa|].
    assert (Rp : Rabs (val r + val p) <= 40960001) by (apply Rabs_le; lra).
    replace (val (fadd F r p) - (S j + x * x)) with ((val (fadd F r p) - (val r + val p)) + ((val r - S j) + (val p - x * x))) by ring.
    eapply Rle_trans; [apply Rabs_triang|]. eapply Rle_trans; [apply Rplus_le_compat_l, Rabs_triang|]. rewrite S_INR.
    replace ((INR j + 1) * (3 * ulp * 40960000) + (INR j + 1) * (2 * tiny)) with (INR j * (3 * ulp * 40960000) + INR j * (2 * tiny) + 3 * ulp * 40960000 + 2 * tiny) by ring.
    assert (ulp * Rabs (val r + val p) <= ulp * 40960001) by (apply Rmult_le_compat_l; [rewrite ulp_val; lra|exact Rp]). rewrite ulp_val in *. lra.
  - cbn [Nat.add] in H2. exists r. split; [exact E|]. split; [exact H1|]. rewrite Sn in H2.
    assert (SJ := S0 (2 ^ lg)%nat (Nat.le_refl _)). rewrite Sn in SJ.
    assert (JB : 0 <= INR (2 ^ lg) <= 1024) by (split; [apply pos_INR|]; replace 1024 with (INR 1024) by (rewrite INR_IZR_INZ; simpl; lra); apply le_INR; lia).
    assert (INR (2 ^ lg) * (3 * ulp * 40960000) <= 1024 * (3 * ulp * 40960000)) by (rewrite ulp_val; apply Rmult_le_compat_r; lra).
    assert (INR (2 ^ lg) * (2 * tiny) <= 1024 * (2 * tiny)) by (apply Rmult_le_compat_r; lra). rewrite ulp_val in *. split; lra.
Qed.

(** ** the threshold *)
Lemma threshold_apx : fin (gs_norm_threshold F) /\ Rabs (val (gs_norm_threshold F) - 168224121 / 10000) <= 1 / 100000000.
Proof.
  unfold gs_norm_threshold. destruct (flit_err F fin val A (117, 2)%Z eq_refl) as [H1 H2]. cbn [fst snd] in *. set (t := flit F 117 2) in *. change (10 ^ 2)%Z with 100%Z in H2.
  rewrite (Rabs_pos_eq (117 / 100)) in H2 by lra. assert (T := tiny_pos). assert (T1 := tiny_1). rewrite ulp_val in H2.
  assert (B : 117 / 100 - 1 / 1000000000000000 <= val t <= 117 / 100 + 1 / 1000000000000000) by (apply Rabs_le_inv in H2; lra).
  assert (H26 : 100000 <= huge) by (apply huge_40; simpl; lra).
  destruct (acc_mul _ _ _ A t t H1 H1) as [H3 H4]; [apply Rabs_le; lra|apply Rabs_le; lra|]. set (u := fmul F t t) in *.
  assert (Bt : (117 / 100 - 1 / 1000000000000000) * (117 / 100 - 1 / 1000000000000000) <= val t * val t <= (117 / 100 + 1 / 1000000000000000) * (117 / 100 + 1 / 1000000000000000)) by (split; apply Rmult_le_compat; lra).
  rewrite (Rabs_pos_eq (val t * val t)) in H4 by lra. rewrite ulp_val in H4. apply Rabs_le_inv in H4.
  destruct (acc_int _ _ _ A M_ff.Q ltac:(simpl; unfold M_ff.Q; lia)) as [H5 H6]. change (IZR M_ff.Q) with 12289 in H6.
  destruct (acc_mul _ _ _ A u (fofz F M_ff.Q) H3 H5) as [H7 H8]; [apply Rabs_le; lra|rewrite H6; apply Rabs_le; lra|]. split; [exact H7|]. rewrite H6 in H8.
  rewrite (Rabs_pos_eq (val u * 12289)) in H8 by lra. rewrite ulp_val in H8. apply Rabs_le_inv in H8. apply Rabs_le. lra.
Qed.

(** ** the computation, operation by operation *)
Definition sums (lg : nat) (wf wg : list C) : list C :=
  vop F (cadd F) (2 ^ lg) (vop F (fcmul F) (2 ^ lg) wf (map (cconj F) wf)) (vop F (fcmul F) (2 ^ lg) wg (map (cconj F) wg)).
Definition quot (lg : nat) (w wf wg : list C) : list C := vop F (fcdiv F) (2 ^ lg) (map (cconj F) w) (sums lg wf wg).
Lemma gsn_raw ztab lg f g lf lgg wf wg n0 n1 m0 m1 : length f = (2 ^ lg)%nat -> length g = (2 ^ lg)%nat ->
  of_ints F lg f = Ok lf -> of_ints F lg g = Ok lgg -> fft F ztab lg lf = Ok wf -> fft F ztab lg lgg = Ok wg -> length wf = (2 ^ lg)%nat -> length wg = (2 ^ lg)%nat ->
  sqrd_norm_d F lg (ints lg f) = Ok n0 -> sqrd_norm_d F lg (ints lg g) = Ok n1 ->
  sqrd_norm_c F lg (quot lg wf wf wg) = Ok m0 -> sqrd_norm_c F lg (quot lg wg wf wg) = Ok m1 ->
  gram_schmidt_norm F ztab lg f g = Ok (fmax F (fadd F n0 n1) (fmul F (fmul F (fofz F M_ff.Q) (fofz F M_ff.Q)) (fadd F m0 m1))).
Proof.
  intros Lf Lg Of Og Tf Tg Lwf Lwg N0 N1 M0 M1. unfold gram_schmidt_norm.
  assert (TD : forall a : list Z, length a = (2 ^ lg)%nat -> forn (2 ^ lg) 0 (fun i v => x <- rd a i ;; wr v i (fofz F x)) (repeat (fofz F 0) (2 ^ lg)) = Ok (ints lg a)).
  { intros a La. refine (fill_ok (D F) (fofz F 0) (2 ^ lg) _ _ _ (repeat_length _ _) _). intros i v Hi [L _]. rewrite (rd_Ok a i 0%Z) by lia. cbn [bind]. rewrite wr_Ok by (rewrite L; exact Hi). reflexivity. }
  assert (TC : forall a : list Z, length a = (2 ^ lg)%nat -> forn (2 ^ lg) 0 (fun i v => x <- rd (ints lg a) i ;; wr v i (cof F x)) (fresh F (2 ^ lg)) = of_ints F lg a).
  { intros a La. transitivity (Ok (tab (2 ^ lg) (fun i => cof F (fofz F (nth i a 0%Z))))); [|symmetry; unfold of_ints]; (refine (fill_ok C d (2 ^ lg) _ (fresh F (2 ^ lg)) _ (repeat_length _ _) _); intros i v Hi [L _]).
    - rewrite (rd_Ok _ i (fofz F 0)) by (unfold ints; rewrite tab_length; exact Hi). unfold ints. rewrite nth_tab by exact Hi. cbn [bind]. rewrite wr_Ok by (rewrite L; exact Hi). reflexivity.
    - rewrite (rd_Ok a i 0%Z) by lia. cbn [bind]. rewrite wr_Ok by (rewrite L; exact Hi). reflexivity. }
  rewrite (TD f Lf), (TD g Lg). cbn [bind]. rewrite N0, N1. cbn [bind]. rewrite (TC f Lf), (TC g Lg), Of, Og. cbn [bind]. rewrite Tf, Tg. cbn [bind].
  assert (LF : length (fresh F (2 ^ lg)) = (2 ^ lg)%nat) by apply repeat_length.
  rewrite !(adj_raw F lg) by assumption. cbn [bind]. unfold cpoly_mul, cpoly_add, cpoly_div.
  assert (LA : length (map (cconj F) wf) = (2 ^ lg)%nat) by (rewrite map_length; exact Lwf). assert (LA' : length (map (cconj F) wg) = (2 ^ lg)%nat) by (rewrite map_length; exact Lwg).
  rewrite !(zip_raw F) by assumption. cbn [bind]. rewrite !(zip_raw F) by (assumption || apply vop_length). cbn [bind]. rewrite !(zip_raw F) by (assumption || apply vop_length). cbn [bind].
  fold (sums lg wf wg). fold (quot lg wf wf wg). fold (quot lg wg wf wg). rewrite M0. cbn [bind]. rewrite M1. reflexivity.
Qed.
(** a norm is computed, whatever the entries *)
Definition ccomp (x : C) : Prop := comp (fst x) /\ comp (snd x).
Lemma cfin_ccomp x : cfin x -> ccomp x. Proof. intros [H1 H2]. split; apply comp_fin; assumption. Qed.
Lemma ccomp_conj x : ccomp x -> ccomp (cconj F x). Proof. intros [H1 H2]. split; [exact H1|apply comp_neg; exact H2]. Qed.
Lemma ccomp_add x y : ccomp x -> ccomp y -> ccomp (cadd F x y). Proof. intros [H1 H2] [H3 H4]. split; apply comp_add; assumption. Qed.
Lemma ccomp_mul x y : ccomp x -> ccomp y -> ccomp (fcmul F x y). Proof. intros [H1 H2] [H3 H4]. split; [apply comp_cmul_re|apply comp_cmul_im]; assumption. Qed.
Lemma ccomp_div x y : ccomp x -> ccomp y -> ccomp (fcdiv F x y). Proof. intros [H1 H2] [H3 H4]. split; [apply comp_cdiv_re|apply comp_cdiv_im]; assumption. Qed.
Lemma norm_comp lg (s : list C) : (lg <= 10)%nat -> length s = (2 ^ lg)%nat -> (forall i, (i < 2 ^ lg)%nat -> ccomp (nth i s d)) -> exists r, sqrd_norm_c F lg s = Ok r /\ comp r.
Proof.
  intros Hlg Ls H. unfold sqrd_norm_c. destruct (acc_int _ _ _ A 0 ltac:(simpl; lia)) as [Z1 _].
  destruct (forn_inv (fun _ r => ccomp r) (2 ^ lg) 0 (fun i r => x <- rd s i ;; Ok (cadd F r (fcmul F x (cconj F x)))) d) as (r & E & H1).
  - split; apply comp_fin; exact Z1.
  - intros j r Hj Hr. rewrite (rd_Ok s j d) by lia. cbn [bind]. eexists. split; [reflexivity|]. specialize (H j ltac:(lia)). apply ccomp_add; [exact Hr|]. apply ccomp_mul; [exact H|apply ccomp_conj; exact H].
  - rewrite E. cbn [bind]. eexists. split; [reflexivity|]. apply comp_div; [apply H1|]. apply comp_fin. apply (acc_int _ _ _ A). assert (B := pow_1024 lg Hlg). change (2 ^ 53)%Z with 9007199254740992%Z. lia.
Qed.
Lemma nth_vop op n a b i : (i < n)%nat -> nth i (vop F op n a b) d = op (nth i a d) (nth i b d).
Proof. intros Hi. unfold vop. rewrite (nth_tab n) by exact Hi. reflexivity. Qed.
Lemma nth_cj w i : (i < length w)%nat -> nth i (map (cconj F) w) d = cconj F (nth i w d).
Proof. intros Hi. rewrite (nth_indep _ d (cconj F d)) by (rewrite map_length; exact Hi). apply map_nth. Qed.
Lemma nth_sums lg wf wg i : length wf = (2 ^ lg)%nat -> length wg = (2 ^ lg)%nat -> (i < 2 ^ lg)%nat ->
  nth i (sums lg wf wg) d = cadd F (fcmul F (nth i wf d) (cconj F (nth i wf d))) (fcmul F (nth i wg d) (cconj F (nth i wg d))).
Proof. intros L1 L2 Hi. unfold sums. rewrite !nth_vop, !nth_cj by lia. reflexivity. Qed.
Lemma nth_quot lg w wf wg i : length w = (2 ^ lg)%nat -> (i < 2 ^ lg)%nat -> nth i (quot lg w wf wg) d = fcdiv F (cconj F (nth i w d)) (nth i (sums lg wf wg) d).
Proof. intros L1 Hi. unfold quot. rewrite nth_vop, nth_cj by lia. reflexivity. Qed.
Lemma quot_comp lg w wf wg i : vfin (2 ^ lg) w -> vfin (2 ^ lg) wf -> vfin (2 ^ lg) wg -> (i < 2 ^ lg)%nat -> ccomp (nth i (quot lg w wf wg) d).
Proof.
  intros [L H] [Lf Hf] [Lg Hg] Hi. rewrite nth_quot, nth_sums by assumption. specialize (H i Hi). specialize (Hf i Hi). specialize (Hg i Hi). apply cfin_ccomp in H, Hf, Hg.
  apply ccomp_div; [apply ccomp_conj; exact H|]. apply ccomp_add; (apply ccomp_mul; [assumption|apply ccomp_conj; assumption]).
Qed.

(** ** one quotient *)
Lemma sum_point x y r : cfin x -> cfin y -> Cm (cv x) <= 10000000 -> Cm (cv y) <= 10000000 -> r = mod2 (cv x) + mod2 (cv y) -> 1 / 10000000000000000000 <= r ->
  let s := cadd F (fcmul F x (cconj F x)) (fcmul F y (cconj F y)) in
  cfin s /\ Cm (Csub (cv s) (r, 0)) <= 1 / 1000000000000000 * r.
Proof.
  intros Fx Fy Bx By -> Hr s. assert (T := tiny_pos). assert (T1 : tiny <= 1 / 100000000000000000000000000000000000000000000000000).
  { unfold tiny. replace (10 ^ 100) with (10 ^ 50 * 10 ^ 50) by (rewrite <- pow_add; reflexivity). rewrite Rinv_mult. assert (/ 10 ^ 50 <= 1 / 100000000000000000000000000000000000000000000000000) by (right; simpl; field).
    assert (0 < / 10 ^ 50 <= 1) by (split; [apply Rinv_0_lt_compat, pow_lt; lra|rewrite <- Rinv_1; apply Rinv_le_contravar; [lra|apply pow_R1_Rle; lra]]).
    apply Rle_trans with (1 * / 10 ^ 50); [apply Rmult_le_compat_r; lra|lra]. }
  assert (H8 : 1000000000000000 <= huge) by (apply huge_40; simpl; lra).
  assert (P : forall z, cfin z -> Cm (cv z) <= 10000000 -> cfin (fcmul F z (cconj F z)) /\ Cm (Csub (cv (fcmul F z (cconj F z))) (mod2 (cv z), 0)) <= 3 * ulp * mod2 (cv z) + tiny /\ 0 <= mod2 (cv z) <= 100000000000000).
  { intros z Fz Bz. destruct (cconj_ok F fin val A z Fz) as [Fc Ec]. destruct (cmul_err F fin val A z (cconj F z) Fz Fc) as [G1 G2]; [lra|rewrite Ec, Cm_conj; lra|]. split; [exact G1|]. rewrite Ec, Cm_conj, Cm_sq in G2.
    replace (Cmul (cv z) (Cconj (cv z))) with (mod2 (cv z), 0) in G2 by (apply Cx_eq; unfold mod2; cx; ring). split; [exact G2|]. split; [apply mod2_pos|]. rewrite <- Cm_sq. assert (Z0 := Cm_pos (cv z)). replace 100000000000000 with (10000000 * 10000000) by ring. apply Rmult_le_compat; lra. }
  destruct (P x Fx Bx) as (G1 & G2 & G3). destruct (P y Fy By) as (G4 & G5 & G6). set (p := fcmul F x (cconj F x)) in *. set (p' := fcmul F y (cconj F y)) in *. set (a := mod2 (cv x)) in *. set (b := mod2 (cv y)) in *.
  assert (Ca : Cm (a, 0) = a) by (apply Cm_real; lra). assert (Cb : Cm (b, 0) = b) by (apply Cm_real; lra).
  assert (Ep := Cm_le_add (cv p) (a, 0)). assert (Ep' := Cm_le_add (cv p') (b, 0)). rewrite ulp_val in *.
  destruct (cadd_err F fin val A p p' G1 G4) as [G7 G8]; [lra|lra|]. fold s in G7, G8. split; [exact G7|].
  assert (T2 : Cm (Csub (Cadd (cv p) (cv p')) (a + b, 0)) <= Cm (Csub (cv p) (a, 0)) + Cm (Csub (cv p') (b, 0))).
  { eapply Rle_trans; [|apply Cm_tri]. right. f_equal. apply Cx_eq; cx; ring. }
  assert (T3 : Cm (Csub (cv s) (a + b, 0)) <= Cm (Csub (cv s) (Cadd (cv p) (cv p'))) + Cm (Csub (Cadd (cv p) (cv p')) (a + b, 0))).
  { eapply Rle_trans; [|apply Cm_tri]. right. f_equal. apply Cx_eq; cx; ring. }
  assert (T4 := Cm_le_add (Cadd (cv p) (cv p')) (a + b, 0)). assert (Cs : Cm (a + b, 0) = a + b) by (apply Cm_real; lra). rewrite ulp_val in *. lra.
Qed.
Lemma quot_point x s r : cfin x -> cfin s -> Cm (cv x) <= 10000000 -> 1 / 10000000000000000000 <= r <= 1000000000000000 -> Cm (Csub (cv s) (r, 0)) <= 1 / 1000000000000000 * r ->
  let z := fcdiv F (cconj F x) s in
  cfin z /\ Cm (cv z) <= 10 ^ 28 /\ (1 - 1 / 100000000000000) * Cm (cv x) / r - 2 * tiny / r <= Cm (cv z).
Proof.
  intros Fx Fs Bx Hr Hs z. assert (T := tiny_pos). assert (T1 := tiny_1). assert (X0 := Cm_pos (cv x)).
  assert (Cr : Cm (r, 0) = r) by (apply Cm_real; lra). assert (S1 := Cm_le_add (cv s) (r, 0)). assert (S2 := Cm_le_add (r, 0) (cv s)). rewrite (Cm_swap (r, 0)) in S2.
  destruct (cconj_ok F fin val A x Fx) as [Fc Ec].
  assert (S50 : / 10 ^ 50 <= 1 / 100000000000000000000) by (replace (10 ^ 50) with (100000000000000000000 * 10 ^ 30) by (simpl; ring); rewrite Rinv_mult; assert (0 < / 10 ^ 30 <= 1) by (split; [apply Rinv_0_lt_compat, pow_lt; lra|rewrite <- Rinv_1; apply Rinv_le_contravar; [lra|apply pow_R1_Rle; lra]]); lra).
  assert (B50 : 10000000000000000 <= 10 ^ 50) by (simpl; lra).
  destruct (cdiv_err F fin val A (cconj F x) s Fc Fs) as [G1 G2]; [rewrite Ec, Cm_conj; lra|lra|]. fold z in G1, G2. rewrite Ec, Cm_conj in G2. split; [exact G1|].
  assert (U1 := Cm_le_add (Cmul (cv z) (cv s)) (Cconj (cv x))). assert (U2 := Cm_le_add (Cconj (cv x)) (Cmul (cv z) (cv s))). rewrite (Cm_swap (Cconj _)) in U2. rewrite Cm_mul, Cm_conj in U1, U2.
  assert (Z0 := Cm_pos (cv z)). set (zz := Cm (cv z)) in *. set (a := Cm (cv x)) in *. set (sn := Cm (cv s)) in *. rewrite ulp_val in *.
  assert (K1 : zz * sn <= zz * ((1 + 1 / 1000000000000000) * r)) by (apply Rmult_le_compat_l; lra).
  assert (K2 : zz * ((1 - 1 / 1000000000000000) * r) <= zz * sn) by (apply Rmult_le_compat_l; lra). split.
  - assert (K3 : zz * (1 / 100000000000000000000) <= zz * ((1 - 1 / 1000000000000000) * r)) by (apply Rmult_le_compat_l; lra).
    apply Rle_trans with 10000000000000000000000000000; [|simpl; lra]. lra.
  - apply (Rmult_le_reg_r r); [lra|]. replace (((1 - 1 / 100000000000000) * a / r - 2 * tiny / r) * r) with ((1 - 1 / 100000000000000) * a - 2 * tiny) by (field; lra).
    lra.
Qed.
Lemma sq_low zz u v : 0 <= u -> 0 <= v -> 0 <= zz -> u - v <= zz -> u * u - 2 * (u * v) <= zz * zz.
Proof.
  intros Hu Hv Hz H. destruct (Rle_dec v u) as [L|L].
  - assert ((u - v) * (u - v) <= zz * zz) by (apply Rmult_le_compat; lra). assert (0 <= v * v) by (apply Rmult_le_pos; lra). lra.
  - assert (u * u <= u * v) by (apply Rmult_le_compat_l; lra). assert (0 <= zz * zz) by (apply Rmult_le_pos; lra). assert (0 <= u * v) by (apply Rmult_le_pos; lra). lra.
Qed.
Lemma tiny_50 : tiny <= 1 / 100000000000000000000000000000000000000000000000000.
Proof.
  unfold tiny. replace (10 ^ 100) with (10 ^ 50 * 10 ^ 50) by (rewrite <- pow_add; reflexivity). rewrite Rinv_mult. assert (/ 10 ^ 50 <= 1 / 100000000000000000000000000000000000000000000000000) by (right; simpl; field).
  assert (0 < / 10 ^ 50 <= 1) by (split; [apply Rinv_0_lt_compat, pow_lt; lra|rewrite <- Rinv_1; apply Rinv_le_contravar; [lra|apply pow_R1_Rle; lra]]).
  apply Rle_trans with (1 * / 10 ^ 50); [apply Rmult_le_compat_r; lra|lra].
Qed.
Lemma pair_low a b r z1 z2 : 0 <= a <= 10000000 -> 0 <= b <= 10000000 -> r = a * a + b * b -> 1 / 10000000000000000000 <= r -> 0 <= z1 -> 0 <= z2 ->
  (1 - 1 / 100000000000000) * a / r - 2 * tiny / r <= z1 -> (1 - 1 / 100000000000000) * b / r - 2 * tiny / r <= z2 ->
  (1 - 3 / 100000000000000) * / r <= z1 * z1 + z2 * z2.
Proof.
  intros Ha Hb Er Hr P1 P2 H1 H2. assert (T := tiny_pos). assert (T1 := tiny_50). unfold Rdiv in H1, H2. set (w := / r) in *. assert (W : 0 < w) by (apply Rinv_0_lt_compat; lra).
  assert (RW : r * w = 1) by (unfold w; field; lra). set (c := 1 - 1 * / 100000000000000) in *. assert (Hc : c = 1 - 1 / 100000000000000) by (unfold c; lra). assert (C1 : 0 <= c <= 1) by lra.
  assert (A0 : 0 <= a * w) by (apply Rmult_le_pos; lra). assert (B0 : 0 <= b * w) by (apply Rmult_le_pos; lra). assert (V0 : 0 <= 2 * tiny * w) by (apply Rmult_le_pos; lra).
  assert (Q1 := sq_low z1 (c * (a * w)) (2 * tiny * w) ltac:(apply Rmult_le_pos; lra) V0 P1 ltac:(lra)).
  assert (Q2 := sq_low z2 (c * (b * w)) (2 * tiny * w) ltac:(apply Rmult_le_pos; lra) V0 P2 ltac:(lra)).
  assert (E : c * (a * w) * (c * (a * w)) + c * (b * w) * (c * (b * w)) = c * c * w).
  { replace (c * (a * w) * (c * (a * w)) + c * (b * w) * (c * (b * w))) with (c * c * w * ((a * a + b * b) * w)) by ring. rewrite <- Er, RW. ring. }
  assert (W2 : w <= 10000000000000000000). { unfold w. replace 10000000000000000000 with (/ (1 / 10000000000000000000)) by field. apply Rinv_le_contravar; lra. }
  assert (X1 : c * (a * w) * (2 * tiny * w) <= 1 / 100000000000000000 * w).
  { replace (c * (a * w) * (2 * tiny * w)) with ((c * a) * (w * tiny) * 2 * w) by ring. apply Rmult_le_compat_r; [lra|].
    assert (c * a <= 1 * 10000000) by (apply Rmult_le_compat; lra). assert (0 <= c * a) by (apply Rmult_le_pos; lra). assert (w * tiny <= 10000000000000000000 * tiny) by (apply Rmult_le_compat_r; lra). assert (0 <= w * tiny) by (apply Rmult_le_pos; lra).
    assert (c * a * (w * tiny) <= 10000000 * (10000000000000000000 * tiny)) by (apply Rmult_le_compat; lra). lra. }
  assert (X2 : c * (b * w) * (2 * tiny * w) <= 1 / 100000000000000000 * w).
  { replace (c * (b * w) * (2 * tiny * w)) with ((c * b) * (w * tiny) * 2 * w) by ring. apply Rmult_le_compat_r; [lra|].
    assert (c * b <= 1 * 10000000) by (apply Rmult_le_compat; lra). assert (0 <= c * b) by (apply Rmult_le_pos; lra). assert (w * tiny <= 10000000000000000000 * tiny) by (apply Rmult_le_compat_r; lra). assert (0 <= w * tiny) by (apply Rmult_le_pos; lra).
    assert (c * b * (w * tiny) <= 10000000 * (10000000000000000000 * tiny)) by (apply Rmult_le_compat; lra). lra. }
  assert (X3 : (1 - 2 / 100000000000000) * w <= c * c * w) by (apply Rmult_le_compat_r; [lra|rewrite Hc; lra]). lra.
Qed.
(** the entries of the transforms and the exact values: |x - u|, |y - v| <= e *)
Lemma row_close (x y u v : Cx) e : Cm (Csub x u) <= e -> Cm (Csub y v) <= e -> mod2 x + mod2 y <= mod2 u + mod2 v + 2 * e * (Cm x + Cm y).
Proof.
  intros H1 H2. assert (E : forall x u, Cm (Csub x u) <= e -> mod2 x <= mod2 u + 2 * e * Cm x).
  { clear. intros x u H. assert (L := Cm_le_add x u). assert (P := Cm_pos x). assert (P' := Cm_pos u). assert (P2 := Cm_pos (Csub x u)). assert (0 <= e) by lra. assert (Q := sq_low (Cm u) (Cm x) e P H0 P' ltac:(lra)). rewrite !Cm_sq in Q. lra. }
  assert (Q1 := E x u H1). assert (Q2 := E y v H2). lra.
Qed.

Section Key.
Variable ztab : list C.
Hypothesis HZ : table_near F fin val ztab.
Variable lg : nat.
Hypothesis Hlg : (lg <= 10)%nat.
Notation N := (2 ^ lg)%nat.
Notation pe a := (emb (ofl Z 0%Z N a)).
Variables f g : list Z.
Hypotheses (Lf : length f = N) (Lg : length g = N).
Hypothesis Bf : forall i, (i < N)%nat -> (Z.abs (nth i f 0%Z) <= 200)%Z.
Hypothesis Bg : forall i, (i < N)%nat -> (Z.abs (nth i g 0%Z) <= 200)%Z.
Variable v : D F.
Hypothesis HV : gram_schmidt_norm F ztab lg f g = Ok v.
Hypothesis HT : fgt F v (gs_norm_threshold F) = false.

Lemma gs_first : (sqnorm f + sqnorm g <= 16822)%Z /\ exists lf lgg wf wg m0 m1, of_ints F lg f = Ok lf /\ of_ints F lg g = Ok lgg /\ fft F ztab lg lf = Ok wf /\ fft F ztab lg lgg = Ok wg /\
  sqrd_norm_c F lg (quot lg wf wf wg) = Ok m0 /\ sqrd_norm_c F lg (quot lg wg wf wg) = Ok m1 /\
  (fin (fmul F (fmul F (fofz F M_ff.Q) (fofz F M_ff.Q)) (fadd F m0 m1)) -> val (fmul F (fmul F (fofz F M_ff.Q) (fofz F M_ff.Q)) (fadd F m0 m1)) <= val (gs_norm_threshold F)).
Proof.
  destruct (normd_apx lg f Hlg Lf Bf) as (n0 & E0 & F0 & H0 & S0). destruct (normd_apx lg g Hlg Lg Bg) as (n1 & E1 & F1 & H1 & S1).
  assert (K : forall a : list Z, length a = N -> 0 <= IZR (sqnorm a) <= 40960000 -> nrm N (cc (pe a)) <= 6400).
  { intros a La [_ Sa]. apply (nrm_list lg a 6400 La); [lia|]. change (6400 * 6400)%Z with 40960000%Z. apply le_IZR. lra. }
  destruct (trans_apx F fin val A ztab HZ lg Hlg f 6400 Lf (K f Lf S0) ltac:(lra)) as (lf & wf & E2 & L2 & E3 & A3).
  destruct (trans_apx F fin val A ztab HZ lg Hlg g 6400 Lg (K g Lg S1) ltac:(lra)) as (lgg & wg & E4 & L4 & E5 & A5).
  assert (V3 := proj1 A3). assert (V5 := proj1 A5).
  destruct (norm_comp lg (quot lg wf wf wg) Hlg (vop_length _ _ _ _ _)) as (m0 & E6 & C6); [intros i Hi; apply quot_comp; assumption|].
  destruct (norm_comp lg (quot lg wg wf wg) Hlg (vop_length _ _ _ _ _)) as (m1 & E7 & C7); [intros i Hi; apply quot_comp; assumption|].
  rewrite (gsn_raw ztab lg f g lf lgg wf wg n0 n1 m0 m1 Lf Lg E2 E4 E3 E5 (proj1 V3) (proj1 V5) E0 E1 E6 E7) in HV.
  assert (Ev : v = fmax F (fadd F n0 n1) (fmul F (fmul F (fofz F M_ff.Q) (fofz F M_ff.Q)) (fadd F m0 m1))) by congruence. rewrite Ev in HT.
  destruct threshold_apx as [FT ET]. destruct (acc_int _ _ _ A M_ff.Q ltac:(simpl; unfold M_ff.Q; lia)) as [FQ _].
  assert (H8 : 1000000000000000 <= huge) by (apply huge_40; simpl; lra). apply Rabs_le_inv in H0, H1, ET.
  destruct (acc_add _ _ _ A n0 n1 F0 F1) as [Fa Ha]; [apply Rabs_le; lra|apply Rabs_le; lra|].
  destruct (acc_maxgt _ _ _ A _ _ _ Fa (comp_mul _ _ _ _ (comp_mul _ _ _ _ (comp_fin _ _ _ FQ) (comp_fin _ _ _ FQ)) (comp_add _ _ _ _ C6 C7)) FT HT) as [R1 R2].
  split; [|exists lf, lgg, wf, wg, m0, m1; repeat (split; [assumption|]); exact R2].
  assert (Rs : Rabs (val n0 + val n1) <= 100000000) by (apply Rabs_le; lra). assert (ulp * Rabs (val n0 + val n1) <= ulp * 100000000) by (apply Rmult_le_compat_l; [rewrite ulp_val; lra|exact Rs]).
  apply Z.lt_succ_r. apply lt_IZR. rewrite succ_IZR, plus_IZR. apply Rabs_le_inv in Ha. rewrite ulp_val in *. lra.
Qed.
Lemma sum_low n (z1 z2 r : nat -> R) c : (forall i, (i < n)%nat -> c * r i <= z1 i + z2 i) -> c * Rsigma n r <= Rsigma n z1 + Rsigma n z2.
Proof. induction n as [|n IH]; intros H; cbn [Rsigma]; [lra|]. specialize (IH (fun i Hi => H i ltac:(lia))). specialize (H n ltac:(lia)). lra. Qed.
Lemma sum_up n (a b : nat -> R) c : (forall i, (i < n)%nat -> a i <= c * b i) -> Rsigma n a <= c * Rsigma n b.
Proof. induction n as [|n IH]; intros H; cbn [Rsigma]; [lra|]. specialize (IH (fun i Hi => H i ltac:(lia))). specialize (H n ltac:(lia)). lra. Qed.
Lemma sum_term n (a : nat -> R) i : (forall j, (j < n)%nat -> 0 <= a j) -> (i < n)%nat -> a i <= Rsigma n a.
Proof.
  induction n as [|n IH]; intros H Hi; [lia|]. cbn [Rsigma]. assert (0 <= Rsigma n a) by (apply Rsigma_pos; intros j Hj; apply H; lia). assert (Hn := H n ltac:(lia)).
  destruct (Nat.eq_dec i n) as [->|E]; [lra|]. specialize (IH (fun j Hj => H j ltac:(lia)) ltac:(lia)). lra.
Qed.
Hypothesis HR : forall i, (i < N)%nat -> 1 / 1000000000000000000 <= row_norm lg f g i.
Lemma gs_accept : gs_norm lg f g <= 168224122 / 10000.
Proof.
  destruct gs_first as (HS & lf & lgg & wf & wg & m0 & m1 & E2 & E4 & E3 & E5 & E6 & E7 & HF). assert (T := tiny_pos). assert (T1 := tiny_1).
  assert (Sf : (0 <= sqnorm f)%Z) by apply sqnorm_pos. assert (Sg : (0 <= sqnorm g)%Z) by apply sqnorm_pos.
  destruct (trans_apx F fin val A ztab HZ lg Hlg f 130 Lf (nrm_list lg f 130 Lf ltac:(lia) ltac:(lia)) ltac:(lra)) as (lf' & wf' & E2' & _ & E3' & A3). assert (lf' = lf) by congruence. subst lf'. assert (wf' = wf) by congruence. subst wf'.
  destruct (trans_apx F fin val A ztab HZ lg Hlg g 130 Lg (nrm_list lg g 130 Lg ltac:(lia) ltac:(lia)) ltac:(lra)) as (lg' & wg' & E4' & _ & E5' & A5). assert (lg' = lgg) by congruence. subst lg'. assert (wg' = wg) by congruence. subst wg'.
  clear E2' E4' E3' E5'. set (e := 64 / 100000000000000 * 130) in *. assert (He : 0 <= e <= 84 / 1000000000000) by (unfold e; lra).
  assert (Sup : forall a w, nrm N (cc (pe a)) <= 130 -> apx N w (ev (pe a)) e -> forall i, (i < N)%nat -> Cm (X w i) <= 10000 /\ Cm (Csub (X w i) (ev (pe a) i)) <= e /\ Cm (ev (pe a) i) <= 4160).
  { intros a w Ha Aw i Hi. assert (P1 := apx_point F fin val N w _ e i Aw Hi). assert (P2 := ev_sup lg Hlg a 130 i Ha Hi). assert (P3 := Cm_le_add (X w i) (ev (pe a) i)). lra. }
  assert (Pf := Sup f wf (nrm_list lg f 130 Lf ltac:(lia) ltac:(lia)) A3). assert (Pg := Sup g wg (nrm_list lg g 130 Lg ltac:(lia) ltac:(lia)) A5). clear Sup.
  assert (V3 := proj1 A3). assert (V5 := proj1 A5). destruct V3 as [L3 V3]. destruct V5 as [L5 V5].
  (* rows of the computed transforms *)
  set (r := fun i => mod2 (X wf i) + mod2 (X wg i)).
  assert (ER : forall i, row_norm lg f g i = mod2 (ev (pe f) i) + mod2 (ev (pe g) i)). { intros i. rewrite dd_row by assumption. reflexivity. }
  assert (Rlo : forall i, (i < N)%nat -> 1 / 10000000000000000000 <= r i <= 1000000000).
  { intros i Hi. specialize (HR i Hi). rewrite ER in HR. destruct (Pf i Hi) as (F1 & F2 & F3). destruct (Pg i Hi) as (G1 & G2 & G3). unfold r. split.
    - rewrite Cm_swap in F2, G2. assert (Q := row_close _ _ _ _ e F2 G2). set (a := Cm (ev (pe f) i)) in *. set (b := Cm (ev (pe g) i)) in *. rewrite <- (Cm_sq (ev (pe f) i)), <- (Cm_sq (ev (pe g) i)) in *. fold a in HR, Q. fold b in HR, Q.
      assert (a0 : 0 <= a) by apply Cm_pos. assert (b0 : 0 <= b) by apply Cm_pos.
      assert (Ta : 2 * a <= 1000000000 * (a * a) + 1 / 1000000000) by (assert (S := Rle_0_sqr (a * 1000000000 - 1)); unfold Rsqr in S; lra).
      assert (Tb : 2 * b <= 1000000000 * (b * b) + 1 / 1000000000) by (assert (S := Rle_0_sqr (b * 1000000000 - 1)); unfold Rsqr in S; lra).
      assert (2 * e * (a + b) <= 168 / 1000000000000 * (a + b)) by (apply Rmult_le_compat_r; lra). lra.
    - assert (Q1 := Cm_mod2 _ _ F1). assert (Q2 := Cm_mod2 _ _ G1). lra. }
  assert (PT : forall i, (i < N)%nat -> cfin (nth i (quot lg wf wf wg) d) /\ cfin (nth i (quot lg wg wf wg) d) /\ Cm (X (quot lg wf wf wg) i) <= 10 ^ 28 /\ Cm (X (quot lg wg wf wg) i) <= 10 ^ 28 /\
    (1 - 3 / 100000000000000) * / r i <= mod2 (X (quot lg wf wf wg) i) + mod2 (X (quot lg wg wf wg) i)).
  { intros i Hi. destruct (Pf i Hi) as (F1 & _). destruct (Pg i Hi) as (G1 & _). assert (RL := Rlo i Hi).
    destruct (sum_point (nth i wf d) (nth i wg d) (r i) (V3 i Hi) (V5 i Hi)) as [S1 S2]; [change (Cm (X wf i) <= 10000000); lra|change (Cm (X wg i) <= 10000000); lra|reflexivity|apply RL|]. rewrite <- (nth_sums lg wf wg i L3 L5 Hi) in S1, S2.
    destruct (quot_point (nth i wf d) _ (r i) (V3 i Hi) S1) as (Q1 & Q2 & Q3); [change (Cm (X wf i) <= 10000000); lra|lra|exact S2|].
    destruct (quot_point (nth i wg d) _ (r i) (V5 i Hi) S1) as (Q4 & Q5 & Q6); [change (Cm (X wg i) <= 10000000); lra|lra|exact S2|].
    rewrite <- (nth_quot lg wf wf wg i L3 Hi) in Q1, Q2, Q3. rewrite <- (nth_quot lg wg wf wg i L5 Hi) in Q4, Q5, Q6.
    split; [exact Q1|]. split; [exact Q4|]. split; [exact Q2|]. split; [exact Q5|]. rewrite <- !Cm_sq.
    apply (pair_low (Cm (X wf i)) (Cm (X wg i)) (r i)); [split; [apply Cm_pos|lra]|split; [apply Cm_pos|lra]|unfold r; rewrite !Cm_sq; reflexivity|apply RL|apply Cm_pos|apply Cm_pos|exact Q3|exact Q6]. }
  assert (P28 : 32 * 10 ^ 28 <= 10 ^ 30) by (replace (10 ^ 30) with (100 * 10 ^ 28) by (simpl; ring); assert (0 < 10 ^ 28) by (apply pow_lt; lra); lra).
  assert (P28' : 0 <= 10 ^ 28) by (apply pow_le; lra). assert (SQ : 0 <= sqrt (INR N) <= 32) by (split; [apply sqrt_pos|apply sqrt_1024, pow_1024, Hlg]).
  assert (NS : sqrt (INR N) * 10 ^ 28 <= 10 ^ 30) by (apply Rle_trans with (32 * 10 ^ 28); [apply Rmult_le_compat_r; lra|exact P28]).
  destruct (norm_apx F fin val A lg (quot lg wf wf wg) Hlg) as (m0' & E6' & F6 & H6); [split; [apply vop_length|intros i Hi; apply PT, Hi]| |].
  { eapply Rle_trans; [apply (nrm_sup N _ (10 ^ 28) P28'); intros i Hi; apply PT, Hi|exact NS]. }
  destruct (norm_apx F fin val A lg (quot lg wg wf wg) Hlg) as (m1' & E7' & F7 & H7); [split; [apply vop_length|intros i Hi; apply PT, Hi]| |].
  { eapply Rle_trans; [apply (nrm_sup N _ (10 ^ 28) P28'); intros i Hi; apply PT, Hi|exact NS]. }
  assert (m0' = m0) by congruence. assert (m1' = m1) by congruence. subst m0' m1'. clear E6' E7'. rewrite nrm_sq in H6, H7.
  assert (SL := sum_low N (fun i => mod2 (X (quot lg wf wf wg) i)) (fun i => mod2 (X (quot lg wg wf wg) i)) (fun i => / r i) _ (fun i Hi => proj2 (proj2 (proj2 (proj2 (PT i Hi)))))). cbv beta in SL.
  assert (B0 : 0 <= Rsigma N (fun i => mod2 (X (quot lg wf wf wg) i))) by (apply Rsigma_pos; intros; apply mod2_pos).
  assert (B1 : 0 <= Rsigma N (fun i => mod2 (X (quot lg wg wf wg) i))) by (apply Rsigma_pos; intros; apply mod2_pos).
  assert (U0 : Rsigma N (fun i => mod2 (X (quot lg wf wf wg) i)) <= 10 ^ 60).
  { rewrite <- nrm_sq. replace (10 ^ 60) with (10 ^ 30 * 10 ^ 30) by (rewrite <- pow_add; reflexivity). apply Rmult_le_compat; try apply nrm_pos; (eapply Rle_trans; [apply (nrm_sup N _ (10 ^ 28) P28'); intros i Hi; apply PT, Hi|exact NS]). }
  assert (U1 : Rsigma N (fun i => mod2 (X (quot lg wg wf wg) i)) <= 10 ^ 60).
  { rewrite <- nrm_sq. replace (10 ^ 60) with (10 ^ 30 * 10 ^ 30) by (rewrite <- pow_add; reflexivity). apply Rmult_le_compat; try apply nrm_pos; (eapply Rle_trans; [apply (nrm_sup N _ (10 ^ 28) P28'); intros i Hi; apply PT, Hi|exact NS]). }
  set (Z0 := Rsigma N (fun i => mod2 (X (quot lg wf wf wg) i))) in *. set (Z1 := Rsigma N (fun i => mod2 (X (quot lg wg wf wg) i))) in *. set (RR := Rsigma N (fun i => / r i)) in *.
  assert (N1 : 1 <= INR N <= 1024) by (split; [replace 1 with (INR 1) by reflexivity; apply le_INR; assert (Hp := pow2_pos lg); lia|]; replace 1024 with (INR 1024) by (rewrite INR_IZR_INZ; simpl; lra); apply le_INR, pow_1024, Hlg).
  assert (W : 0 < / INR N <= 1) by (split; [apply Rinv_0_lt_compat; lra|rewrite <- Rinv_1; apply Rinv_le_contravar; lra]). assert (NW : INR N * / INR N = 1) by (field; lra). unfold Rdiv in H6, H7. set (w := / INR N) in *.
  assert (RRlo : INR N * (1 / 1000000000) <= RR).
  { unfold RR. assert (E : forall n, (n <= N)%nat -> INR n * (1 / 1000000000) <= Rsigma n (fun i => / r i)); [|apply E; lia].
    induction n as [|n IH]; intros Hn; [simpl; lra|]. rewrite S_INR. cbn [Rsigma]. specialize (IH ltac:(lia)). assert (1 / 1000000000 <= / r n); [|lra]. specialize (Rlo n ltac:(lia)). replace (1 / 1000000000) with (/ 1000000000) by lra. apply Rinv_le_contravar; lra. }
  assert (V0 : 0 <= Z0 * w <= 10 ^ 60) by (split; [apply Rmult_le_pos; lra|]; apply Rle_trans with (Z0 * 1); [apply Rmult_le_compat_l; lra|lra]).
  assert (V1 : 0 <= Z1 * w <= 10 ^ 60) by (split; [apply Rmult_le_pos; lra|]; apply Rle_trans with (Z1 * 1); [apply Rmult_le_compat_l; lra|lra]).
  assert (SW : (1 - 3 / 100000000000000) * (RR * w) <= Z0 * w + Z1 * w) by (replace ((1 - 3 / 100000000000000) * (RR * w)) with ((1 - 3 / 100000000000000) * RR * w) by ring; rewrite <- Rmult_plus_distr_r; apply Rmult_le_compat_r; lra).
  assert (RW : 1 / 1000000000 <= RR * w). { apply Rle_trans with (INR N * (1 / 1000000000) * w); [right; rewrite (Rmult_comm (INR N)), Rmult_assoc, NW; ring|apply Rmult_le_compat_r; lra]. }
  set (t0 := Z0 * w) in *. set (t1 := Z1 * w) in *.
  assert (H61 : 1000000000000000000000000000000 * 10 ^ 60 <= huge) by (unfold huge; replace (10 ^ 100) with (10000000000000000000000000000000000000000 * 10 ^ 60) by (change 10000000000000000000000000000000000000000 with (IZR (10 ^ 40)); rewrite pow_IZR, pow_IZR, <- mult_IZR; f_equal); assert (0 < 10 ^ 60) by (apply pow_lt; lra); lra).
  assert (P60 : 1 <= 10 ^ 60) by (apply pow_R1_Rle; lra).
  apply Rabs_le_inv in H6, H7.
  destruct (acc_add _ _ _ A m0 m1 F6 F7) as [Fa Ha]; [apply Rabs_le; lra|apply Rabs_le; lra|]. set (s := val (fadd F m0 m1)) in *.
  rewrite (Rabs_pos_eq (val m0 + val m1)) in Ha by lra. apply Rabs_le_inv in Ha. rewrite ulp_val in Ha.
  assert (Slo : (1 - 3 / 1000000000000) * (t0 + t1) <= s) by lra. assert (Shi : s <= 10 * 10 ^ 60) by lra. assert (Spos : 0 < s) by lra.
  destruct (acc_int _ _ _ A M_ff.Q ltac:(simpl; unfold M_ff.Q; lia)) as [FQ EQ]. change (IZR M_ff.Q) with 12289 in EQ.
  destruct (acc_mul _ _ _ A _ _ FQ FQ) as [FQQ HQQ]; [rewrite EQ; apply Rabs_le; lra|rewrite EQ; apply Rabs_le; lra|]. rewrite EQ in HQQ. set (qq := val (fmul F (fofz F M_ff.Q) (fofz F M_ff.Q))) in *.
  rewrite (Rabs_pos_eq (12289 * 12289)) in HQQ by lra. rewrite ulp_val in HQQ. apply Rabs_le_inv in HQQ.
  assert (QQ : 151019520999999 / 1000000 <= qq <= 151019522) by lra.
  destruct (acc_mul _ _ _ A _ _ FQQ Fa) as [FY HY]; [fold qq; apply Rabs_le; lra|fold s; apply Rabs_le; lra|]. fold qq s in HY.
  assert (QS : 151019520999999 / 1000000 * s <= qq * s) by (apply Rmult_le_compat_r; lra). rewrite (Rabs_pos_eq (qq * s)) in HY by lra. rewrite ulp_val in HY. apply Rabs_le_inv in HY.
  specialize (HF FY). destruct threshold_apx as [_ ET]. apply Rabs_le_inv in ET.
  assert (TT : 151019521 * (RR * w) <= 168224121010 / 10000000) by lra.
  (* every row of the computed transforms *)
  assert (RI : forall j, (j < N)%nat -> 0 <= / r j) by (intros j Hj; left; apply Rinv_0_lt_compat; specialize (Rlo j Hj); lra).
  assert (Rhi : forall i, (i < N)%nat -> 8 <= r i).
  { intros i Hi. assert (TI := sum_term N (fun i => / r i) i RI Hi). cbv beta in TI. fold RR in TI.
    assert (RR <= 1024 * (RR * w)). { replace RR with (INR N * (RR * w)) at 1 by (rewrite <- Rmult_assoc, (Rmult_comm (INR N)), Rmult_assoc, NW; ring). apply Rmult_le_compat_r; lra. }
    apply Rnot_lt_le. intros L. assert (/ 8 < / r i) by (apply Rinv_lt_contravar; [specialize (Rlo i Hi); lra|exact L]). lra. }
  unfold gs_norm. apply Rmax_lub; [apply Rle_trans with (IZR 16822); [apply IZR_le; exact HS|lra]|]. unfold gs_second. unfold Rdiv at 1. fold w.
  assert (UP : Rsigma N (fun i => IZR (q * q) / row_norm lg f g i) <= 151019521 * (1 + 3 / 10000000000) * RR).
  { apply sum_up. intros i Hi. destruct (Pf i Hi) as (F1 & F2 & F3). destruct (Pg i Hi) as (G1 & G2 & G3). assert (Q := row_close _ _ _ _ e F2 G2). fold (r i) in Q. rewrite <- ER in Q. specialize (Rhi i Hi). specialize (HR i Hi).
    assert (Ta : 2 * Cm (X wf i) <= mod2 (X wf i) + 1) by (rewrite <- Cm_sq; assert (S := Rle_0_sqr (Cm (X wf i) - 1)); unfold Rsqr in S; lra).
    assert (Tb : 2 * Cm (X wg i) <= mod2 (X wg i) + 1) by (rewrite <- Cm_sq; assert (S := Rle_0_sqr (Cm (X wg i) - 1)); unfold Rsqr in S; lra).
    assert (Ca := Cm_pos (X wf i)). assert (Cb := Cm_pos (X wg i)).
    assert (2 * e * (Cm (X wf i) + Cm (X wg i)) <= 168 / 1000000000000 * (Cm (X wf i) + Cm (X wg i))) by (apply Rmult_le_compat_r; lra).
    assert (LR : (1 - 2 / 10000000000) * r i <= row_norm lg f g i) by (unfold r in *; lra).
    change (IZR (q * q)) with 151019521. unfold Rdiv at 1. rewrite Rmult_assoc. apply Rmult_le_compat_l; [lra|].
    apply Rle_trans with (/ ((1 - 2 / 10000000000) * r i)); [apply Rinv_le_contravar; lra|]. rewrite Rinv_mult. apply Rmult_le_compat_r; [left; apply Rinv_0_lt_compat; lra|]. lra. }
  apply Rle_trans with (151019521 * (1 + 3 / 10000000000) * RR * w); [apply Rmult_le_compat_r; lra|]. lra.
Qed.
End Key.
End Gs.
