(** P_testg.v -- the test of splitting and merging passes whatever it draws. *)
From Verif Require Import Base Ring Poly Spec SpecR SpecF M_xform P_xform M_codec P_codec M_float M_exact M_samp M_fft M_ntru P_ntru M_tree P_brv P_cplx P_fft P_tree P_treex P_gs P_sign P_signx P_l2 P_err P_ferr P_float P_fmerge P_fsafe P_fsafex P_fsafey P_fsv P_pnorm M_testg.
From Coq Require Import Ring_theory Ring Reals Lra Psatz.
Open Scope R_scope.

Section Fl.
Variable F : fops.
Variable fin : D F -> Prop.
Variable val : D F -> R.
Hypothesis A : accurate F fin val.
Notation C := (D F * D F)%type.
Notation d := (c0 F).
Notation X := (X F val).
Notation apx := (apx F fin val).
Variable ztab : list C.
Hypothesis HZ : table_near F fin val ztab.

Lemma feq_val x y : fin x -> fin y -> val x = val y -> feq F x y = true.
Proof. intros Hx Hy E. unfold feq. apply andb_true_intro. split; apply (acc_le _ _ _ A); try assumption; lra. Qed.

Lemma round_differ lg (p : zpv (2 ^ lg)) (w u : list C) e : apx (2 ^ lg) w (cc (emb p)) e -> e < 1 / 2 -> length u = (2 ^ lg)%nat ->
  (forall i, (i < 2 ^ lg)%nat -> nth i u d = cof F (fofz F (pc Z 0%Z p i)) /\ (Z.abs (pc Z 0%Z p i) <= 1000000)%Z) ->
  exists r, round_re F (2 ^ lg) w = Ok r /\ differ F (2 ^ lg) r u = Ok false.
Proof.
  intros Ha He Lu Hu. assert (Va := proj1 Ha). assert (Lw := proj1 Va).
  exists (tab (2 ^ lg) (fun i => cof F (fround F (fst (nth i w d))))). split.
  - unfold round_re. apply (P_ntru.fill_ok C d); [exact Lw|]. intros i v Hi [Lv Hv]. rewrite (rd_Ok v i d) by lia. cbn [bind]. rewrite wr_Ok by lia.
    do 4 f_equal. rewrite (Hv i Hi). destruct (Nat.ltb_spec i i); [lia|reflexivity].
  - unfold differ. destruct (forn_inv (fun _ b => b = false) (2 ^ lg) 0
      (fun i flg => x <- rd (tab (2 ^ lg) (fun i => cof F (fround F (fst (nth i w d))))) i ;; y <- rd u i ;; Ok (flg || negb (ceq F x y))%bool) false) as (b & E & ->); [reflexivity| |exact E].
    intros i b [_ Hi] ->. exists false. split; [|reflexivity]. rewrite (rd_Ok _ i d) by (rewrite tab_length; lia). cbn [bind]. rewrite (rd_Ok u i d) by lia. cbn [bind].
    rewrite nth_tab by lia. destruct (Hu i Hi) as [-> Hb].
    assert (N := apx_point F fin val _ _ _ _ i Ha Hi). rewrite emb_c in N by exact Hi.
    assert (N1 : Rabs (val (fst (nth i w d)) - IZR (pc Z 0%Z p i)) <= e) by (eapply Rle_trans; [apply (Cm_fst (Csub (X w i) (Cz (pc Z 0%Z p i))))|exact N]).
    assert (B : Rabs (IZR (pc Z 0%Z p i)) <= 1000000) by (rewrite <- abs_IZR; apply IZR_le; exact Hb).
    destruct (acc_round _ _ _ A (fst (nth i w d))) as [H1 H2]; [apply Va, Hi| |].
    { replace (val (fst (nth i w d))) with (val (fst (nth i w d)) - IZR (pc Z 0%Z p i) + IZR (pc Z 0%Z p i)) by ring. eapply Rle_trans; [apply Rabs_triang|]. lra. }
    rewrite (Rround_near (pc Z 0%Z p i)) in H2 by lra.
    destruct (acc_int _ _ _ A (pc Z 0%Z p i)) as [H3 H4]; [change (2 ^ 53)%Z with 9007199254740992%Z; lia|].
    destruct (acc_int _ _ _ A 0%Z ltac:(cbv; discriminate)) as [H5 H6].
    unfold ceq, cof. cbn [fst snd]. rewrite (feq_val _ _ H1 H3) by (rewrite H2, H4; reflexivity). rewrite (feq_val _ _ H5 H5) by reflexivity. reflexivity.
Qed.

(** the two halves of the values, split from the rounded transform *)
Lemma split_halves h (w o0 o1 : list C) (P : cpv (2 ^ S h)) e K : (S h <= 10)%nat -> apx (2 ^ S h) w (ev P) e -> nrm (2 ^ S h) (ev P) <= K -> 0 <= e <= K -> 1 <= K <= 10000000 ->
  length o0 = (2 ^ h)%nat -> length o1 = (2 ^ h)%nat ->
  exists u0 u1, split_fft F ztab (S h) w o0 o1 = Ok (u0, u1) /\
    apx (2 ^ h) u0 (@ev h (pev Cx Czero P)) (e + 2 / 100000000000000 * K) /\ apx (2 ^ h) u1 (@ev h (pod Cx Czero P)) (e + 2 / 100000000000000 * K).
Proof.
  intros Hh Ha NP He HK L0 L1. assert (Va := proj1 Ha).
  destruct (ft_surj (S h) (tab (2 ^ S h) (X w)) Hh (tab_length _ _)) as [q Eq].
  assert (EX : forall i, (i < 2 ^ S h)%nat -> X w i = ev q i).
  { intros i Hi. rewrite <- (nth_ft (S h) q i Hi), <- Eq. symmetry. apply (nth_tab (2 ^ S h) (X w) i Czero Hi). }
  assert (D1 : nrm (2 ^ S h) (fun i => Csub (ev q i) (ev P i)) <= e).
  { rewrite (nrm_ext _ _ (fun i => Csub (X w i) (ev P i))); [apply Ha|]. intros i Hi. rewrite EX by exact Hi. reflexivity. }
  assert (NQ : nrm (2 ^ S h) (ev q) <= 2 * K) by (pose proof (nrm_le_add (2 ^ S h) (ev q) (ev P)); lra).
  destruct (split_poly F fin val A ztab HZ h w o0 o1 q (2 * K) Hh Va EX NQ ltac:(lra) L0 L1) as (u0 & u1 & q' & E & V0 & V1 & X0 & X1 & D2).
  exists u0, u1. split; [exact E|].
  assert (D3 : nrm (2 ^ S h) (@ev (S h) (cpsub q' P)) <= e + 2 / 100000000000000 * K).
  { rewrite (nrm_ext _ _ (fun i => Csub (ev q' i) (ev P i))); [|intros i Hi; apply ev_sub]. eapply Rle_trans; [apply (nrm_sub_tri _ _ (ev q))|]. lra. }
  destruct (pair_le h (cpsub q' P) _ Hh D3) as [D4 D5].
  split; (split; [assumption|]).
  - eapply Rle_trans; [|exact D4]. right. apply nrm_ext. intros i Hi. rewrite X0 by exact Hi. etransitivity; [symmetry; apply ev_sub|]. apply (f_equal (fun z => @ev h z i)). symmetry. apply (pev_sub (2 ^ h) q' P).
  - eapply Rle_trans; [|exact D5]. right. apply nrm_ext. intros i Hi. rewrite X1 by exact Hi. etransitivity; [symmetry; apply ev_sub|]. apply (f_equal (fun z => @ev h z i)). symmetry. apply (pod_sub (2 ^ h) q' P).
Qed.

Lemma split_ints h (a : zpv (2 ^ S h)) : pev Cx Czero (@emb (2 ^ S h) a) = emb (mkp Z (2 ^ h) (fun k => pc Z 0%Z a (2 * k))) /\ pod Cx Czero (@emb (2 ^ S h) a) = emb (mkp Z (2 ^ h) (fun k => pc Z 0%Z a (2 * k + 1))).
Proof.
  assert (E2 : (2 ^ S h = 2 * 2 ^ h)%nat) by reflexivity.
  split; apply (pv_ext Cx Czero); intros k Hk; change (k < 2 ^ h)%nat in Hk.
  - unfold Poly.pev. rewrite pc_mkp by exact Hk. rewrite !emb_c by (exact Hk || lia). rewrite (pc_mkp Z) by exact Hk. reflexivity.
  - unfold pod. rewrite pc_mkp by exact Hk. rewrite !emb_c by (exact Hk || lia). rewrite (pc_mkp Z) by exact Hk. reflexivity.
Qed.

Lemma of_ints_tab lg (a : list Z) : length a = (2 ^ lg)%nat -> of_ints F lg a = Ok (tab (2 ^ lg) (fun i => cof F (fofz F (nth i a 0%Z)))).
Proof.
  intros La. unfold of_ints. apply (P_ntru.fill_ok C d); [apply repeat_length|]. intros i v Hi [Lv _]. rewrite (rd_Ok a i 0%Z) by lia. cbn [bind]. rewrite wr_Ok by lia. reflexivity.
Qed.

Lemma test_split_merge_ok lg draws : (1 <= lg <= 10)%nat -> length draws = (2 ^ lg)%nat -> (sqnorm draws <= 100000 * 100000)%Z -> test_fft_split_merge F ztab lg draws = Ok true.
Proof.
  destruct lg as [|h]; [lia|]. intros [_ Hh] Ld Sd.
  assert (E2 : (2 ^ S h = 2 * 2 ^ h)%nat) by reflexivity.
  assert (Nd := nrm_list (S h) draws 100000 Ld ltac:(lia) Sd).
  assert (P30 : 10000000000000000000000000000 <= 10 ^ 30) by (simpl; lra). assert (P37 : 10 ^ 30 <= 10 ^ 37) by (apply Rle_pow; [lra|lia]).
  assert (B : forall i, (i < 2 ^ S h)%nat -> (Z.abs (nth i draws 0) <= 1000000)%Z).
  { intros i Hi. pose proof (nrm_coeff (S h) draws i Hi). apply le_IZR. rewrite abs_IZR. lra. }
  destruct (fft_ints F fin val A ztab HZ (S h) draws 100000 Hh Ld (coeff_53 (S h) draws 100000 Nd ltac:(lra)) Nd ltac:(lra)) as (l & w & E1 & E3 & Hw).
  assert (El := E1). rewrite of_ints_tab in El by exact Ld. injection El as El.
  assert (Ll : length l = (2 ^ S h)%nat) by (rewrite <- El; apply tab_length).
  assert (Nl : forall i, (i < 2 ^ S h)%nat -> nth i l d = cof F (fofz F (nth i draws 0%Z))) by (intros i Hi; rewrite <- El, nth_tab by exact Hi; reflexivity). clear El.
  set (p := ofl Z 0%Z (2 ^ S h) draws) in *.
  assert (Pp : forall i, (i < 2 ^ S h)%nat -> pc Z 0%Z p i = nth i draws 0%Z) by (intros i Hi; unfold p; apply pc_ofl; exact Hi).
  assert (HN : (2 ^ S h / 2 = 2 ^ h)%nat) by (rewrite E2, Nat.mul_comm; apply Nat.div_mul; lia).
  assert (Sp : csplit F (S h) l (fresh F (2 ^ h)) (fresh F (2 ^ h)) = Ok (tab (2 ^ h) (fun i => nth (2 * i) l d), tab (2 ^ h) (fun i => nth (2 * i + 1) l d))).
  { unfold csplit. rewrite HN. refine (P_fft.fill2_ok d (2 ^ h) _ _ _ _ _ (repeat_length _ _) (repeat_length _ _) _). intros i v0 v1 Hi M0 M1 _ _.
    rewrite (rd_Ok l (2 * i) d) by lia. cbn [bind]. rewrite wr_Ok by lia. cbn [bind]. rewrite (rd_Ok l (2 * i + 1) d) by lia. cbn [bind]. rewrite wr_Ok by lia. reflexivity. }
  destruct (lg_ep (S h) Hh) as [L1 L2]. pose proof (s2_32 (S h) Hh) as S32. pose proof (s2_1 (S h)) as S1. pose proof (s2_1 h) as S0.
  set (K := s2 (S h) * 100000) in *. assert (KB : 100000 <= K <= 3200000) by (unfold K; lra).
  set (m := INR (S h) * ep) in *.
  assert (Eb : 0 <= s2 (S h) * (m * 100000) <= 2 / 100000000000000 * K).
  { replace (s2 (S h) * (m * 100000)) with (m * K) by (unfold K; ring). split; [apply Rmult_le_pos; lra|apply Rmult_le_compat_r; lra]. }
  assert (NP : nrm (2 ^ S h) (ev (@emb (2 ^ S h) p)) <= K) by (rewrite nrm_ev; apply Rmult_le_compat_l; [lra|exact Nd]).
  destruct (split_halves h w (fresh F (2 ^ h)) (fresh F (2 ^ h)) (@emb (2 ^ S h) p) _ K Hh Hw NP ltac:(lra) ltac:(lra) (repeat_length _ _) (repeat_length _ _)) as (u0 & u1 & E4 & U0 & U1).
  set (x := 4 / 100000000000000 * K) in *. assert (XB : 0 <= x <= 1 / 5000000) by (unfold x; lra).
  assert (Ux : s2 (S h) * (m * 100000) + 2 / 100000000000000 * K <= x) by (unfold x; lra).
  apply (apx_weak _ _ _ _ _ _ _ x) in U0; [|exact Ux]. apply (apx_weak _ _ _ _ _ _ _ x) in U1; [|exact Ux].
  destruct (pair_le h (@emb (2 ^ S h) p) K Hh NP) as [N0 N1].
  assert (T1 := th_1). assert (Tt := tiny_1). assert (Tp := tiny_pos). assert (T0 := th_pos).
  destruct (ifft_err F fin val A ztab HZ h u0 _ x K ltac:(lia) U0 N0 ltac:(unfold x; lra) ltac:(lra)) as (v0 & E5 & V0).
  destruct (ifft_err F fin val A ztab HZ h u1 _ x K ltac:(lia) U1 N1 ltac:(unfold x; lra) ltac:(lra)) as (v1 & E6 & V1).
  assert (Mg : exists wm, merge_fft F ztab (S h) u0 u1 (fresh F (2 ^ S h)) = Ok wm /\ apx (2 ^ S h) wm (ev (@emb (2 ^ S h) p)) (ep * K + (3 * x + 64 * tiny))).
  { destruct (merge_apx F fin val A ztab HZ h 0 u0 u1 (fresh F (2 ^ S h)) _ _ x Hh ltac:(lia) ltac:(lra) ltac:(eapply Rle_trans; [exact N0|lra]) ltac:(eapply Rle_trans; [exact N1|lra])) as (wm & Em & Hm).
    - eapply apx_weak; [exact U0|]. cbn [INR]. lra.
    - eapply apx_weak; [exact U1|]. cbn [INR]. lra.
    - apply repeat_length.
    - exists wm. split; [exact Em|]. rewrite pint_eo in Hm. eapply apx_weak; [exact Hm|]. cbn [INR]. rewrite Rmult_1_l. apply Rplus_le_compat_r. apply Rmult_le_compat_l; [unfold ep; lra|exact NP]. }
  destruct Mg as (wm & E7 & Hm).
  destruct (ifft_err F fin val A ztab HZ (S h) wm (@emb (2 ^ S h) p) _ K Hh Hm NP ltac:(unfold ep, x; lra) ltac:(lra)) as (v & E8 & V).
  destruct (split_ints h p) as [I0 I1]. rewrite I0 in V0. rewrite I1 in V1.
  assert (Dv : forall a b, 0 <= a -> 1 <= b -> a / b <= a).
  { intros a b Ha Hb. unfold Rdiv. rewrite <- (Rmult_1_r a) at 2. apply Rmult_le_compat_l; [exact Ha|]. rewrite <- Rinv_1. apply Rinv_le_contravar; lra. }
  assert (Em : 0 <= INR (S (S h)) * ep * K <= 1 / 1000000).
  { rewrite S_INR. replace ((INR (S h) + 1) * ep * K) with ((m + ep) * K) by (unfold m; ring). split; [apply Rmult_le_pos; unfold ep in *; lra|].
    assert ((m + ep) * K <= 3 / 100000000000000 * 3200000) by (apply Rmult_le_compat; unfold ep in *; lra). lra. }
  assert (Eh : 0 <= m * K <= 1 / 1000000).
  { split; [apply Rmult_le_pos; lra|]. assert (m * K <= 2 / 100000000000000 * 3200000) by (apply Rmult_le_compat; lra). lra. }
  assert (Q0 : (x + m * K) / s2 h < 1 / 2) by (pose proof (Dv (x + m * K) (s2 h) ltac:(lra) S0); lra).
  assert (Q2 : (ep * K + (3 * x + 64 * tiny) + INR (S (S h)) * ep * K) / s2 (S h) < 1 / 2).
  { assert (0 <= ep * K <= 1 / 1000000) by (unfold ep; lra). pose proof (Dv (ep * K + (3 * x + 64 * tiny) + INR (S (S h)) * ep * K) (s2 (S h)) ltac:(lra) S1). lra. }
  destruct (round_differ h _ v0 (tab (2 ^ h) (fun i => nth (2 * i) l d)) _ V0 Q0 (tab_length _ _)) as (r0 & R0 & F0).
  { intros i Hi. rewrite nth_tab, pc_mkp by exact Hi. rewrite Pp, Nl by lia. split; [reflexivity|apply B; lia]. }
  destruct (round_differ h _ v1 (tab (2 ^ h) (fun i => nth (2 * i + 1) l d)) _ V1 Q0 (tab_length _ _)) as (r1 & R1 & F1).
  { intros i Hi. rewrite nth_tab, pc_mkp by exact Hi. rewrite Pp, Nl by lia. split; [reflexivity|apply B; lia]. }
  destruct (round_differ (S h) p v l _ V Q2 Ll) as (r & R2 & F2).
  { intros i Hi. rewrite Pp, Nl by exact Hi. split; [reflexivity|apply B, Hi]. }
  unfold test_fft_split_merge. cbv zeta. rewrite HN, E1. cbn [bind]. rewrite Sp. cbn [bind]. rewrite E3. cbn [bind]. rewrite E4. cbn [bind].
  replace (S h - 1)%nat with h by lia. rewrite E5, E6. cbn [bind]. rewrite E7. cbn [bind]. rewrite E8. cbn [bind]. rewrite R0, R1, R2. cbn [bind]. rewrite F0, F1, F2. reflexivity.
Qed.

Lemma test_draws_ok lg draws : (1 <= lg <= 10)%nat -> length draws = (2 ^ lg)%nat -> Forall (fun x => (-3 <= x <= 4)%Z) draws -> test_fft_split_merge F ztab lg draws = Ok true.
Proof.
  intros Hlg Ld Hd. apply test_split_merge_ok; [exact Hlg|exact Ld|].
  assert (G : (sqnorm draws <= 16 * Z.of_nat (length draws))%Z).
  { clear Ld. induction Hd as [|x r Hx _ IH]; [reflexivity|]. change (sqnorm (x :: r)) with (x * x + sqnorm r)%Z. cbn [length]. nia. }
  assert (B := pow_1024 lg (proj2 Hlg)). lia.
Qed.
End Fl.
