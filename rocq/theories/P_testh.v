(** P_testh.v -- the test of multiplication and division in the FFT domain. *)
From Verif Require Import Base Ring Poly Spec SpecR SpecF M_xform P_xform M_codec P_codec M_float M_exact M_samp M_fft M_ntru P_ntru M_tree P_brv P_cplx P_fft P_tree P_treex P_gs P_sign P_signx P_l2 P_err P_ferr P_float P_fsv P_fkey M_testg P_testg M_testh.
From Coq Require Import Ring_theory Ring Reals Lra Psatz.
Open Scope R_scope.

(** c near p q and r q near c: r is near p *)
Lemma quot_near (p q c r : Cx) t : 0 <= t <= 1 / 1000000000000000000000000000000 -> 1 / 10000000000000 <= Cm q ->
  Cm (Csub c (Cmul p q)) <= 3 * ulp * (Cm p * Cm q) + t -> Cm (Csub (Cmul r q) c) <= 8 * ulp * Cm c + t -> Cm (Csub r p) <= 12 * ulp * Cm p + 1 / 10000000000000000.
Proof.
  intros Ht Hq H1 H2. assert (Hu := ulp_val). assert (Pp := Cm_pos p). assert (Pc := Cm_pos c). assert (Pr := Cm_pos (Csub r p)).
  assert (C1 : Cm c <= Cm p * Cm q + Cm (Csub c (Cmul p q))) by (rewrite <- Cm_mul; apply Cm_le_add).
  assert (G : Cm (Csub r p) * Cm q <= Cm (Csub (Cmul r q) c) + Cm (Csub c (Cmul p q))).
  { rewrite <- Cm_mul. eapply Rle_trans; [|apply Cm_tri]. right. f_equal. apply Cx_eq; cx; ring. }
  set (x := Cm (Csub r p)) in *. set (w := Cm q) in *. set (s := Cm p) in *. set (y := Cm c) in *. clearbody x w s y.
  set (A := Cm (Csub c (Cmul p q))) in *. set (B := Cm (Csub (Cmul r q) c)) in *. clearbody A B. assert (SW : 0 <= s * w) by (apply Rmult_le_pos; lra).
  assert (G2 : x * w <= (12 * ulp * s + 1 / 10000000000000000) * w).
  { replace ((12 * ulp * s + 1 / 10000000000000000) * w) with (12 * ulp * (s * w) + 1 / 10000000000000000 * w) by ring. set (z := s * w) in *. clearbody z. rewrite Hu in *. lra. }
  apply (Rmult_le_reg_r w); [lra|exact G2].
Qed.

Section Fl.
Variable F : fops.
Variable fin : D F -> Prop.
Variable val : D F -> R.
Hypothesis A : accurate F fin val.
Notation C := (D F * D F)%type.
Notation d := (c0 F).
Notation X := (X F val).
Notation apx := (apx F fin val).
Variable ztab : list C.
Hypothesis HZ : table_near F fin val ztab.

Lemma test_fft_ok lg (K : Z) a b : (lg <= 10)%nat -> (1 <= K <= 100000)%Z -> length a = (2 ^ lg)%nat -> length b = (2 ^ lg)%nat -> (sqnorm a <= K * K)%Z -> (sqnorm b <= K * K)%Z ->
  values_ge lg b (IZR K / 1000000000000) -> test_fft F ztab lg a b = Ok true.
Proof.
  intros Hlg HK La Lb Sa Sb Vb.
  assert (Na := nrm_list lg a K La ltac:(lia) Sa). assert (Nb := nrm_list lg b K Lb ltac:(lia) Sb).
  assert (Hk : 1 <= IZR K <= 100000) by (split; apply IZR_le; lia). assert (Vc := proj1 (values_ge_ev lg b _ Lb) Vb). clear Vb. rename Vc into Vb. set (k := IZR K) in *. clearbody k.
  assert (P30 : 10000000000000000000000000000 <= 10 ^ 30) by (simpl; lra). assert (P37 : 10 ^ 30 <= 10 ^ 37) by (apply Rle_pow; [lra|lia]). assert (P50 : 10 ^ 30 <= 10 ^ 50) by (apply Rle_pow; [lra|lia]).
  assert (P100 : 10 ^ 30 <= huge) by (unfold huge; apply Rle_pow; [lra|lia]).
  assert (I50 : / 10 ^ 50 <= / 10 ^ 30) by (apply Rinv_le_contravar; lra).
  assert (I30 : / 10 ^ 30 <= 1 / 10000000000000) by (replace (1 / 10000000000000) with (/ 10000000000000) by lra; apply Rinv_le_contravar; lra).
  assert (B : forall i, (i < 2 ^ lg)%nat -> (Z.abs (nth i a 0) <= 1000000)%Z).
  { intros i Hi. pose proof (nrm_coeff lg a i Hi). apply le_IZR. rewrite abs_IZR. lra. }
  destruct (fft_ints F fin val A ztab HZ lg a k Hlg La (coeff_53 lg a k Na ltac:(lra)) Na ltac:(lra)) as (l & x & E1 & E3 & Hx).
  destruct (fft_ints F fin val A ztab HZ lg b k Hlg Lb (coeff_53 lg b k Nb ltac:(lra)) Nb ltac:(lra)) as (l2 & y & E2 & E4 & Hy).
  assert (El := E1). rewrite of_ints_tab in El by exact La. injection El as El.
  assert (Ll : length l = (2 ^ lg)%nat) by (rewrite <- El; apply tab_length).
  assert (Nl : forall i, (i < 2 ^ lg)%nat -> nth i l d = cof F (fofz F (nth i a 0%Z))) by (intros i Hi; rewrite <- El, nth_tab by exact Hi; reflexivity). clear El.
  set (p := ofl Z 0%Z (2 ^ lg) a) in *. set (q := ofl Z 0%Z (2 ^ lg) b) in *.
  destruct (lg_ep lg Hlg) as [L1 L2]. pose proof (s2_32 lg Hlg) as S32. pose proof (s2_1 lg) as S1. set (m := INR lg * ep) in *.
  set (M := s2 lg * k) in *. assert (MB : 1 * 1 <= M <= 32 * 100000) by (unfold M; split; apply Rmult_le_compat; lra).
  assert (Mk : M <= 32 * k) by (unfold M; apply Rmult_le_compat_r; lra).
  assert (Ee : 0 <= s2 lg * (m * k) <= 2 / 100000000000000 * M).
  { replace (s2 lg * (m * k)) with (m * M) by (unfold M; ring). split; [apply Rmult_le_pos; lra|apply Rmult_le_compat_r; lra]. }
  set (e := s2 lg * (m * k)) in *. clearbody e.
  assert (NP : nrm (2 ^ lg) (ev (emb p)) <= M) by (rewrite nrm_ev; apply Rmult_le_compat_l; [lra|exact Na]).
  assert (NQ : nrm (2 ^ lg) (ev (emb q)) <= M) by (rewrite nrm_ev; apply Rmult_le_compat_l; [lra|exact Nb]).
  assert (Vx := proj1 Hx). assert (Vy := proj1 Hy).
  assert (Bx : forall i, (i < 2 ^ lg)%nat -> Cm (X x i) <= 10000000).
  { intros i Hi. eapply Rle_trans; [apply (nrm_comp _ _ i Hi)|]. pose proof (apx_nrm _ _ _ _ _ _ _ Hx). lra. }
  assert (By : forall i, (i < 2 ^ lg)%nat -> 1 / 10000000000000 <= Cm (X y i) <= 10000000).
  { intros i Hi. split.
    - assert (U := apx_point F fin val _ _ _ _ i Hy Hi). assert (W := Vb i Hi). assert (T := Cm_le_add (ev (emb q) i) (X y i)).
      replace (Cm (Csub (ev (emb q) i) (X y i))) with (Cm (Csub (X y i) (ev (emb q) i))) in T by (unfold Cm; f_equal; unfold mod2, Csub; cbn [fst snd]; ring). lra.
    - eapply Rle_trans; [apply (nrm_comp _ _ i Hi)|]. pose proof (apx_nrm _ _ _ _ _ _ _ Hy). lra. }
  assert (T1 := tiny_1). assert (T0 := tiny_pos).
  assert (Cerr : forall i, (i < 2 ^ lg)%nat -> cfin F fin (fcmul F (nth i x d) (nth i y d)) /\ Cm (Csub (cv F val (fcmul F (nth i x d) (nth i y d))) (Cmul (X x i) (X y i))) <= 3 * ulp * (Cm (X x i) * Cm (X y i)) + tiny).
  { intros i Hi. apply (cmul_err F fin val A); [apply Vx, Hi|apply Vy, Hi|specialize (Bx i Hi); unfold P_err.X in Bx; lra|specialize (By i Hi); unfold P_err.X in By; lra]. }
  set (fc := tab (2 ^ lg) (fun i => fcmul F (nth i x d) (nth i y d))).
  assert (E5 : cpoly_mul F lg x y (fresh F (2 ^ lg)) = Ok fc).
  { unfold cpoly_mul. apply (zipw_ok _ (fcmul F)); try (symmetry; first [apply Vx|apply Vy|apply repeat_length]); reflexivity. }
  set (fd := tab (2 ^ lg) (fun i => fcdiv F (nth i fc d) (nth i y d))).
  assert (E6 : cpoly_div F lg fc y (fresh F (2 ^ lg)) = Ok fd).
  { unfold cpoly_div. apply (zipw_ok _ (fcdiv F)); try (symmetry; first [apply tab_length|apply Vy|apply repeat_length]); reflexivity. }
  assert (Derr : forall i, (i < 2 ^ lg)%nat -> cfin F fin (nth i fd d) /\ Cm (Csub (X fd i) (X x i)) <= 12 * ulp * Cm (X x i) + 1 / 10000000000000000).
  { intros i Hi. unfold P_err.X at 1. unfold fd. rewrite nth_tab by exact Hi. unfold fc. rewrite nth_tab by exact Hi. destruct (Cerr i Hi) as [C1 C2].
    assert (BX := Bx i Hi). assert (BY := By i Hi). set (c := fcmul F (nth i x d) (nth i y d)) in *.
    assert (BC : Cm (cv F val c) <= 10 ^ 30).
    { eapply Rle_trans; [apply (Cm_le_add _ (Cmul (X x i) (X y i)))|]. rewrite Cm_mul. pose proof (Cm_pos (X x i)) as Q1. pose proof (Cm_pos (X y i)) as Q2.
      assert (Q3 : 0 <= Cm (X x i) * Cm (X y i) <= 10000000 * 10000000) by (split; [apply Rmult_le_pos; lra|apply Rmult_le_compat; lra]). set (z := Cm (X x i) * Cm (X y i)) in *. clearbody z. rewrite ulp_val in *. lra. }
    destruct (cdiv_err F fin val A c (nth i y d) C1 (proj2 Vy i Hi)) as [D1 D2]; [lra|change (cv F val (nth i y d)) with (X y i); lra|].
    split; [exact D1|]. apply (quot_near _ (X y i) (cv F val c) _ tiny); [lra|lra|exact C2|exact D2]. }
  assert (Hd : apx (2 ^ lg) fd (ev (emb p)) (12 * ulp * (M + e) + 1 / 10000000000000000 * 32 + e)).
  { apply (apx_step F fin val _ _ (X x)).
    - split; [apply tab_length|]. intros i Hi. apply Derr, Hi.
    - eapply Rle_trans; [apply (nrm_bound _ _ (X x) (12 * ulp) (1 / 10000000000000000)); [rewrite ulp_val; lra|lra|]; intros i Hi; apply Derr, Hi|].
      assert (Sn := sqrt_1024 _ (pow_1024 lg Hlg)). apply Rplus_le_compat; [|apply Rmult_le_compat_l; lra]. apply Rmult_le_compat_l; [rewrite ulp_val; lra|]. pose proof (apx_nrm _ _ _ _ _ _ _ Hx). lra.
    - apply Hx. }
  assert (Eb : 12 * ulp * (M + e) + 1 / 10000000000000000 * 32 + e <= 1 / 10000000000000 * M) by (rewrite ulp_val; lra).
  apply (apx_weak _ _ _ _ _ _ _ _ Hd) in Eb. clear Hd. rename Eb into Hd.
  destruct (ifft_err F fin val A ztab HZ lg fd (emb p) _ M Hlg Hd NP ltac:(lra) ltac:(pose proof th_1; lra)) as (v & E7 & V).
  assert (Q0 : (1 / 10000000000000 * M + INR (S lg) * ep * M) / s2 lg < 1 / 2).
  { rewrite S_INR. replace ((1 / 10000000000000 * M + (INR lg + 1) * ep * M) / s2 lg) with ((1 / 10000000000000 + (m + ep)) * k) by (unfold M, m; field; lra).
    assert ((1 / 10000000000000 + (m + ep)) * k <= 2 / 10000000000000 * 100000) by (apply Rmult_le_compat; unfold ep in *; lra). lra. }
  destruct (round_differ F fin val A lg p v l _ V Q0 Ll) as (r & R2 & F2).
  { intros i Hi. unfold p. rewrite pc_ofl by exact Hi. rewrite Nl by exact Hi. split; [reflexivity|apply B, Hi]. }
  unfold test_fft. cbv zeta. rewrite E1, E2. cbn [bind]. rewrite E3, E4. cbn [bind]. rewrite E5. cbn [bind]. rewrite E6. cbn [bind]. rewrite E7. cbn [bind]. rewrite R2. cbn [bind]. rewrite F2. reflexivity.
Qed.

Lemma draws_sq lg l : (lg <= 10)%nat -> length l = (2 ^ lg)%nat -> Forall (fun x => (-3 <= x <= 4)%Z) l -> (sqnorm l <= 128 * 128)%Z.
Proof.
  intros Hlg Ll Hl. assert (G : (sqnorm l <= 16 * Z.of_nat (length l))%Z).
  { clear Ll. induction Hl as [|x r Hx _ IH]; [reflexivity|]. change (sqnorm (x :: r)) with (x * x + sqnorm r)%Z. cbn [length]. nia. }
  assert (B := pow_1024 lg Hlg). lia.
Qed.
Lemma test_fft_draws lg a b : (lg <= 10)%nat -> length a = (2 ^ lg)%nat -> length b = (2 ^ lg)%nat -> Forall (fun x => (-3 <= x <= 4)%Z) a -> Forall (fun x => (-3 <= x <= 4)%Z) b ->
  values_ge lg b (128 / 1000000000000) -> test_fft F ztab lg a b = Ok true.
Proof. intros Hlg La Lb Ha Hb Hv. apply (test_fft_ok lg 128); try assumption; [lia|apply (draws_sq lg); assumption|apply (draws_sq lg); assumption]. Qed.
End Fl.

(** a polynomial without small values *)
Definition one_poly (lg : nat) : list Z := 1%Z :: repeat 0%Z (2 ^ lg - 1).
Lemma one_length lg : length (one_poly lg) = (2 ^ lg)%nat.
Proof. unfold one_poly. cbn [length]. rewrite repeat_length. assert (2 ^ lg <> 0)%nat by (apply Nat.pow_nonzero; lia). lia. Qed.
Lemma one_ge lg : values_ge lg (one_poly lg) 1.
Proof.
  apply values_ge_ev; [apply one_length|]. intros i Hi. rewrite <- (poly_at_ev lg) by (rewrite one_length; reflexivity). unfold poly_at, one_poly. cbn [map horner].
  assert (E : forall n x, horner (map Cz (repeat 0%Z n)) x = Czero).
  { induction n as [|n IH]; intros x; [reflexivity|]. cbn [repeat map horner]. rewrite IH. apply Cx_eq; unfold Cz; cx; ring. }
  rewrite E. match goal with |- _ <= Cm ?z => replace z with (Cz 1) by (apply Cx_eq; unfold Cz; cx; ring) end. rewrite P_fkey.Cm_Cz. apply IZR_le. vm_compute. discriminate.
Qed.

(** ** what the loops of the transforms preserve *)
Section Pres.
Context {T : Type}.
Variable P : T -> Prop.
Lemma rd_pres (v : list T) i x : Forall P v -> rd v i = Ok x -> P x.
Proof. intros H E. unfold rd in E. destruct (nth_error v i) eqn:N; [|discriminate]. injection E as <-. apply nth_error_In in N. rewrite Forall_forall in H. apply H, N. Qed.
Lemma wr_pres (v r : list T) i x : Forall P v -> P x -> wr v i x = Ok r -> Forall P r.
Proof.
  intros H Hx E. unfold wr in E. destruct (Nat.ltb_spec i (length v)) as [L|]; [|discriminate]. injection E as <-. apply Forall_forall. intros y Hy. apply (In_nth _ _ x) in Hy. destruct Hy as (j & Hj & <-).
  rewrite upd_length in Hj. rewrite nth_upd by exact L. destruct (Nat.eqb j i); [exact Hx|]. rewrite Forall_forall in H. apply H, nth_In. exact Hj.
Qed.
Variables (mulz subt addt : T -> T -> T) (ztab : list T) (Q : T -> Prop).
Hypothesis HQ : Forall Q ztab.
Hypothesis Hs : forall z x y, Q z -> P x -> P y -> P (subt y (mulz z x)).
Hypothesis Ha : forall z x y, Q z -> P x -> P y -> P (addt y (mulz z x)).
Lemma zt_pres i z : rd ztab i = Ok z -> Q z.
Proof. intros E. unfold rd in E. destruct (nth_error ztab i) eqn:N; [|discriminate]. injection E as <-. apply nth_error_In in N. rewrite Forall_forall in HQ. apply HQ, N. Qed.
Lemma ct_pres lg (v r : list T) : Forall P v -> ct T mulz subt addt ztab lg v = Ok r -> Forall P r.
Proof.
  intros Hv E. unfold ct in E. refine (forn_inv_ok (fun _ => Forall P) _ _ _ _ _ Hv _ E). clear v r Hv E. intros j v r _ Hv E.
  unfold ct_layer in E. refine (forn_inv_ok (fun _ => Forall P) _ _ _ _ _ Hv _ E). clear v r Hv E. intros b v r _ Hv E.
  unfold ct_block in E. cbv zeta in E. apply bind_Ok in E. destruct E as (z & Ez & E). apply zt_pres in Ez.
  refine (forn_inv_ok (fun _ => Forall P) _ _ _ _ _ Hv _ E). clear v r Hv E. intros i v r _ Hv E.
  unfold ct_butterfly in E. apply bind_Ok in E. destruct E as (x & Ex & E). apply (rd_pres _ _ _ Hv) in Ex. apply bind_Ok in E. destruct E as (y & Ey & E). apply (rd_pres _ _ _ Hv) in Ey.
  apply bind_Ok in E. destruct E as (v2 & Ev & E). apply (wr_pres _ _ _ _ Hv (Hs _ _ _ Ez Ex Ey)) in Ev. apply bind_Ok in E. destruct E as (y2 & Ey2 & E). apply (rd_pres _ _ _ Ev) in Ey2.
  apply (wr_pres _ _ _ _ Ev (Ha _ _ _ Ez Ex Ey2) E).
Qed.
End Pres.
Lemma gs_pres {T} (P : T -> Prop) (addi subi muli : T -> T -> T) nztab (scal : T -> T) lg (v r : list T) :
  (forall x y, P x -> P y -> P (addi x y)) -> (forall x y, P x -> P y -> P (subi x y)) -> (forall x z, P x -> P (muli x z)) -> (forall x, P x -> P (scal x)) ->
  Forall P v -> gs T addi subi muli nztab scal lg v = Ok r -> Forall P r.
Proof.
  intros A1 A2 A3 A4 Hv E. unfold gs in E. apply bind_Ok in E. destruct E as (v1 & E1 & E).
  assert (H1 : Forall P v1).
  { refine (forn_inv_ok (fun _ => Forall P) _ _ _ _ _ Hv _ E1). clear v r Hv E E1. intros j v r _ Hv E.
    unfold gs_layer in E. refine (forn_inv_ok (fun _ => Forall P) _ _ _ _ _ Hv _ E). clear v r Hv E. intros b v r _ Hv E.
    unfold gs_block in E. cbv zeta in E. apply bind_Ok in E. destruct E as (z & Ez & E).
    refine (forn_inv_ok (fun _ => Forall P) _ _ _ _ _ Hv _ E). clear v r Hv E. intros i v r _ Hv E.
    unfold gs_butterfly in E. apply bind_Ok in E. destruct E as (x & Ex & E). apply (rd_pres _ _ _ _ Hv) in Ex. apply bind_Ok in E. destruct E as (y & Ey & E). apply (rd_pres _ _ _ _ Hv) in Ey.
    apply bind_Ok in E. destruct E as (v2 & Ev & E). apply (wr_pres _ _ _ _ _ Hv (A1 _ _ Ex Ey)) in Ev. apply bind_Ok in E. destruct E as (y2 & Ey2 & E). apply (rd_pres _ _ _ _ Ev) in Ey2.
    apply bind_Ok in E. destruct E as (v3 & Ev3 & E). apply (wr_pres _ _ _ _ _ Ev (A2 _ _ Ex Ey2)) in Ev3. apply bind_Ok in E. destruct E as (y3 & Ey3 & E). apply (rd_pres _ _ _ _ Ev3) in Ey3.
    apply (wr_pres _ _ _ _ _ Ev3 (A3 _ _ Ey3) E). }
  unfold scale in E. refine (forn_inv_ok (fun _ => Forall P) _ _ _ _ _ H1 _ E). clear v r Hv E E1 H1. intros i v r _ Hv E. apply bind_Ok in E. destruct E as (x & Ex & E). apply (rd_pres _ _ _ _ Hv) in Ex.
  apply (wr_pres _ _ _ _ _ Hv (A4 _ Ex) E).
Qed.
Lemma one_draw lg : length (one_poly lg) = (2 ^ lg)%nat /\ Forall (fun x => (-3 <= x <= 4)%Z) (one_poly lg) /\ values_ge lg (one_poly lg) (128 / 1000000000000).
Proof.
  split; [apply one_length|]. split; [constructor; [lia|apply Forall_forall; intros z Hz; apply repeat_spec in Hz; lia]|].
  generalize (one_ge lg). unfold values_ge. apply Forall_impl. intros x Hx. lra.
Qed.
