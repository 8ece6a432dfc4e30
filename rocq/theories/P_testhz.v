(** P_testhz.v -- the test of multiplication and division in the FFT domain fails if the divisor is zero: 0/0 is NaN. *)
From Coq Require Import SpecFloat.
From Verif Require Import Base Ring Poly Spec SpecR SpecF M_xform P_xform M_codec P_codec M_float M_exact M_ieee M_table M_samp M_fft M_ntru P_ntru M_tree P_brv P_cplx P_fft P_tree P_treex P_gs P_sign P_signx P_l2 P_err P_ferr P_near P_float P_fsv P_live P_ieee M_testg P_testg M_testh P_testh.
From Coq Require Import Reals Lra.
Open Scope R_scope.

Definition isz (x : spec_float) : Prop := match x with S754_zero _ => True | _ => False end.
Definition isf (x : spec_float) : Prop := match x with S754_zero _ | S754_finite _ _ _ => True | _ => False end.
Definition cz (x : D F64 * D F64) : Prop := isz (fst x) /\ isz (snd x).
Definition cf (x : D F64 * D F64) : Prop := isf (fst x) /\ isf (snd x).
Definition cn (x : D F64 * D F64) : Prop := fst x = S754_nan /\ snd x = S754_nan.

Lemma fin_isf x : fin64 x -> isf x. Proof. intros [_ H]. destruct x; exact H. Qed.
Lemma z_add x y : isz x -> isz y -> isz (sf_add x y). Proof. destruct x as [[]| | |], y as [[]| | |]; cbn; tauto. Qed.
Lemma z_sub x y : isz x -> isz y -> isz (sf_sub x y). Proof. destruct x as [[]| | |], y as [[]| | |]; cbn; tauto. Qed.
Lemma z_mul x y : isf x -> isz y -> isz (sf_mul x y). Proof. destruct x, y; cbn; tauto. Qed.
Lemma z_div x y : isz x -> isz y -> sf_div x y = S754_nan. Proof. destruct x, y; cbn; tauto. Qed.
Lemma z_f x : isz x -> isf x. Proof. destruct x; cbn; tauto. Qed.
Lemma n_add y : sf_add S754_nan y = S754_nan. Proof. destruct y; reflexivity. Qed.
Lemma n_sub y : sf_sub S754_nan y = S754_nan. Proof. destruct y; reflexivity. Qed.
Lemma n_mul y : sf_mul S754_nan y = S754_nan. Proof. destruct y; reflexivity. Qed.

Lemma cz_mul x y : cf x -> cz y -> cz (fcmul F64 x y).
Proof. intros [H1 H2] [H3 H4]. split; cbn [fcmul F64 fst snd]; [apply z_sub|apply z_add]; apply z_mul; assumption. Qed.
Lemma cz_add x y : cz x -> cz y -> cz (cadd F64 x y). Proof. intros [H1 H2] [H3 H4]. split; apply z_add; assumption. Qed.
Lemma cz_sub x y : cz x -> cz y -> cz (csub F64 x y). Proof. intros [H1 H2] [H3 H4]. split; apply z_sub; assumption. Qed.
Lemma cn_div x y : cz x -> cz y -> cn (fcdiv F64 x y).
Proof.
  intros [H1 H2] [H3 H4]. assert (F1 := z_f _ H1). assert (F2 := z_f _ H2). assert (F3 := z_f _ H3). assert (F4 := z_f _ H4).
  split; cbn [fcdiv F64 fst snd]; apply z_div; first [apply z_add|apply z_sub]; apply z_mul; assumption.
Qed.
Lemma cn_add x y : cn x -> cn y -> cn (cadd F64 x y). Proof. intros H _. destruct x as [x1 x2]. destruct H as [H1 H2]. cbn [fst snd] in H1, H2. subst. split; apply n_add. Qed.
Lemma cn_sub x y : cn x -> cn y -> cn (csub F64 x y). Proof. intros H _. destruct x as [x1 x2]. destruct H as [H1 H2]. cbn [fst snd] in H1, H2. subst. split; apply n_sub. Qed.
Lemma cn_mul x y : cn x -> cn (fcmul F64 x y).
Proof. intros H. destruct x as [x1 x2]. destruct H as [H1 H2]. cbn [fst snd] in H1, H2. subst. split; cbn [fcmul F64 fst snd]; rewrite !n_mul; [apply n_sub|apply n_add]. Qed.
Lemma cn_scal x s : cn x -> cn (cscal F64 x s). Proof. intros H. destruct x as [x1 x2]. destruct H as [H1 H2]. cbn [fst snd] in H1, H2. subst. split; apply n_mul. Qed.

Lemma nth_Forall {A} (P : A -> Prop) l d0 n : length l = n -> (forall i, (i < n)%nat -> P (nth i l d0)) -> Forall P l.
Proof. intros L H. apply Forall_forall. intros x Hx. apply (In_nth _ _ d0) in Hx. destruct Hx as (i & Hi & <-). apply H. lia. Qed.
Lemma Forall_at {A} (P : A -> Prop) l d0 i : Forall P l -> (i < length l)%nat -> P (nth i l d0).
Proof. intros H Hi. rewrite Forall_forall in H. apply H, nth_In, Hi. Qed.

Lemma differ_true n (u v : list (D F64 * D F64)) : (0 < n)%nat -> length u = n -> length v = n -> (forall i, (i < n)%nat -> fst (nth i u (c0 F64)) = S754_nan) -> differ F64 n u v = Ok true.
Proof.
  intros Hn Lu Lv H. unfold differ.
  destruct (forn_inv (fun i b => (0 < i)%nat -> b = true) n 0 (fun i flg => x <- rd u i ;; y <- rd v i ;; Ok (flg || negb (ceq F64 x y))%bool) false) as (b & E & Hb); [lia| |rewrite E, Hb by lia; reflexivity].
  intros i b [_ Hi] _. rewrite (rd_Ok u i (c0 F64)) by lia. cbn [bind]. rewrite (rd_Ok v i (c0 F64)) by lia. cbn [bind]. eexists. split; [reflexivity|]. intros _.
  unfold ceq, feq. rewrite H by exact Hi. replace (fle F64 S754_nan (fst (nth i v (c0 F64)))) with false by (destruct (fst (nth i v (c0 F64))); reflexivity). apply orb_true_r.
Qed.

Lemma ok_inj {A} (x y : A) : Ok x = Ok y -> x = y. Proof. congruence. Qed.
Lemma test_fft_zero ztab lg a : table_near F64 fin64 val64 ztab -> (lg <= 10)%nat -> length a = (2 ^ lg)%nat -> Forall (fun x => (-3 <= x <= 4)%Z) a -> test_fft F64 (ztab) lg a (repeat 0%Z (2 ^ lg)) = Ok false.
Proof.
  intros HZ Hlg La Ha. assert (A := accurate64).
  set (b := repeat 0%Z (2 ^ lg)). assert (Lb : length b = (2 ^ lg)%nat) by apply repeat_length.
  assert (Sa := draws_sq lg a Hlg La Ha). assert (Na := nrm_list lg a 128 La ltac:(lia) Sa).
  assert (Sb : (sqnorm b <= 128 * 128)%Z) by (apply (draws_sq lg b Hlg Lb); apply Forall_forall; intros z Hz; apply repeat_spec in Hz; lia). assert (Nb := nrm_list lg b 128 Lb ltac:(lia) Sb).
  assert (P30 : 10000000000000000000000000000 <= 10 ^ 30) by (simpl; lra).
  destruct (fft_ints F64 fin64 val64 A _ HZ lg a 128 Hlg La (coeff_53 lg a 128 Na ltac:(lra)) Na ltac:(lra)) as (l & x & E1 & E3 & Hx).
  destruct (fft_ints F64 fin64 val64 A _ HZ lg b 128 Hlg Lb (coeff_53 lg b 128 Nb ltac:(lra)) Nb ltac:(lra)) as (l2 & y & E2 & E4 & Hy).
  assert (Lx := proj1 (proj1 Hx)). assert (Ly := proj1 (proj1 Hy)).
  assert (Ll : length l = (2 ^ lg)%nat). { assert (El := E1). rewrite of_ints_tab in El by exact La. apply ok_inj in El. rewrite <- El. apply tab_length. }
  assert (Zl : Forall cz l2).
  { assert (El := E2). rewrite of_ints_tab in El by exact Lb. apply ok_inj in El. rewrite <- El. apply (nth_Forall _ _ (c0 F64) (2 ^ lg)); [apply tab_length|]. intros i Hi. rewrite nth_tab by exact Hi.
    unfold b. rewrite nth_repeat. split; exact I. }
  assert (Qz : Forall cf (ztab)).
  { destruct HZ as [Lz Hz]. apply (nth_Forall _ _ (c0 F64) 1024 Lz). intros k Hk. destruct (Hz k Hk) as (H1 & H2 & _). split; apply fin_isf; assumption. }
  assert (Zy : Forall cz y).
  { refine (ct_pres cz _ _ _ _ cf Qz _ _ lg l2 y Zl E4); intros z u v Hz Hu Hv; [apply cz_sub|apply cz_add]; try assumption; apply cz_mul; assumption. }
  set (d := c0 F64). set (fc := tab (2 ^ lg) (fun i => fcmul F64 (nth i x d) (nth i y d))).
  assert (E5 : cpoly_mul F64 lg x y (fresh F64 (2 ^ lg)) = Ok fc).
  { unfold cpoly_mul. apply (zipw_ok _ (fcmul F64)); try (symmetry; first [exact Lx|exact Ly|apply repeat_length]); reflexivity. }
  set (fd := tab (2 ^ lg) (fun i => fcdiv F64 (nth i fc d) (nth i y d))).
  assert (E6 : cpoly_div F64 lg fc y (fresh F64 (2 ^ lg)) = Ok fd).
  { unfold cpoly_div. apply (zipw_ok _ (fcdiv F64)); try (symmetry; first [apply tab_length|exact Ly|apply repeat_length]); reflexivity. }
  assert (Nd : Forall cn fd).
  { apply (nth_Forall _ _ d (2 ^ lg)); [apply tab_length|]. intros i Hi. unfold fd. rewrite nth_tab by exact Hi. unfold fc. rewrite nth_tab by exact Hi.
    assert (Yi : cz (nth i y d)) by (apply Forall_at; [exact Zy|rewrite Ly; exact Hi]). apply cn_div; [apply cz_mul|]; try exact Yi.
    destruct (proj2 (proj1 Hx) i Hi) as [X1 X2]. split; apply fin_isf; assumption. }
  assert (Lz : length (ztab) = 1024%nat) by apply HZ. assert (B1024 := pow_1024 lg Hlg).
  destruct (ifft F64 (ztab) lg fd) as [v| |] eqn:E7.
  2,3: (unfold ifft in E7; rewrite (gs_ok _ d) in E7 by (rewrite ?map_length, ?Lz; first [apply tab_length|lia]); discriminate E7).
  assert (Lv : length v = (2 ^ lg)%nat).
  { assert (E := E7). unfold ifft in E. rewrite (gs_ok _ d) in E by (rewrite ?map_length, ?Lz; first [apply tab_length|lia]). apply ok_inj in E. rewrite <- E, map_length, gs_iter_length. apply tab_length. }
  assert (Nv : Forall cn v) by (refine (gs_pres cn _ _ _ _ _ lg fd v cn_add cn_sub cn_mul _ Nd E7); intros u Hu; apply cn_scal, Hu).
  assert (R : round_re F64 (2 ^ lg) v = Ok (tab (2 ^ lg) (fun i => cof F64 (fround F64 (fst (nth i v d)))))).
  { unfold round_re. apply (P_ntru.fill_ok _ d); [exact Lv|]. intros i w Hi [Lw Hw]. rewrite (rd_Ok w i d) by lia. cbn [bind]. rewrite wr_Ok by lia.
    do 4 f_equal. rewrite (Hw i Hi). destruct (Nat.ltb_spec i i); [lia|reflexivity]. }
  assert (P0 : (2 ^ lg <> 0)%nat) by (apply Nat.pow_nonzero; lia).
  assert (Df : differ F64 (2 ^ lg) (tab (2 ^ lg) (fun i => cof F64 (fround F64 (fst (nth i v d))))) l = Ok true).
  { apply differ_true; [lia|apply tab_length|exact Ll|]. intros i Hi. rewrite nth_tab by exact Hi. destruct (Forall_at cn v d i Nv ltac:(lia)) as [V1 _]. cbn [cof fst]. rewrite V1. reflexivity. }
  unfold test_fft. cbv zeta. rewrite E1. cbn [bind]. fold b. rewrite E2. cbn [bind]. rewrite E3, E4. cbn [bind]. rewrite E5. cbn [bind]. rewrite E6. cbn [bind]. rewrite E7. cbn [bind]. rewrite R. cbn [bind]. rewrite Df. reflexivity.
Qed.
Lemma test_fft_zero_draws ztab lg : table_near F64 fin64 val64 ztab -> falcon_lg lg -> exists a b, length a = (2 ^ lg)%nat /\ length b = (2 ^ lg)%nat /\
  Forall (fun x => (-3 <= x <= 4)%Z) a /\ Forall (fun x => (-3 <= x <= 4)%Z) b /\ test_fft F64 ztab lg a b = Ok false.
Proof.
  intros HZ Hlg. assert (L : (lg <= 10)%nat) by (destruct Hlg; lia). destruct (one_draw lg) as (L1 & R1 & _). exists (one_poly lg), (repeat 0%Z (2 ^ lg)).
  split; [exact L1|]. split; [apply repeat_length|]. split; [exact R1|]. split; [apply Forall_forall; intros z Hz; apply repeat_spec in Hz; lia|]. apply test_fft_zero; assumption.
Qed.
