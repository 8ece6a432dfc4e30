(** P_sign.v -- signing in exact arithmetic: integrality of the sampled vectors and the algebra of sign. *)
From Verif Require Import Base Ring Poly Spec SpecR M_ff M_xform P_xform M_codec P_codec M_sig M_verify M_float M_exact P_exact M_samp M_fft M_ntru P_ntru M_tree P_tree P_brv P_cplx P_fft P_treex P_gs.
From Coq Require Import Ring_theory Ring Lra.
Open Scope R_scope.

(** ** ff_sampling returns integer polynomials *)
Lemma ft_single (z : Z) : [cof RF (fofz RF z)] = @ft 0 (emb (ofl Z 0%Z 1 [z])).
Proof.
  apply (@list_ext Cx Czero); [reflexivity|]. intros i Hi. change (length [cof RF (fofz RF z)]) with 1%nat in Hi. assert (i = 0)%nat by lia. subst i.
  rewrite (nth_ft 0) by (simpl; lia). unfold ev, reval. cbn [rsum Nat.pow]. unfold emb. rewrite pc_mkp by lia. rewrite pc_ofl by lia. cbn [nth].
  apply Cx_eq; unfold Cz, cof; cbn; ring.
Qed.
Lemma ffsamp_int fuel smin g (T : list Cx) : forall h lvl (t0 t1 : list Cx) off pos z0 z1 pos', (h <= 10)%nat ->
  length t0 = (2 ^ h)%nat -> length t1 = (2 ^ h)%nat ->
  ff_sampling RF exact_table fuel h lvl t0 t1 T off smin g pos = Ok (z0, z1, pos') ->
  exists a0 a1 : zpv (2 ^ h), z0 = ft (emb a0) /\ z1 = ft (emb a1).
Proof.
  induction h as [|h IH]; intros lvl t0 t1 off pos z0 z1 pos' Hh L0 L1 H.
  - cbn [ff_sampling] in H. apply bind_Ok in H. destruct H as [x [_ H]]. apply bind_Ok in H. destruct H as [a [_ H]].
    apply bind_Ok in H. destruct H as [[u p1] [_ H]]. apply bind_Ok in H. destruct H as [b [_ H]]. apply bind_Ok in H. destruct H as [[v p2] [_ H]].
    exists (ofl Z 0%Z 1 [u]), (ofl Z 0%Z 1 [v]).
    assert (E0 := f_equal (fun r => match r with Ok (a, _, _) => a | _ => [] end) H). assert (E1 := f_equal (fun r => match r with Ok (_, a, _) => a | _ => [] end) H).
    cbv beta iota in E0, E1. rewrite <- E0, <- E1. split; apply ft_single.
  - cbn [ff_sampling] in H. rewrite half_pow2 in H.
    apply bind_Ok in H. destruct H as [l [_ H]].
    assert (LF : @length Cx (fresh RF (2 ^ h)) = (2 ^ h)%nat) by apply repeat_length.
    assert (LF' : @length Cx (fresh RF (2 ^ S h)) = (2 ^ S h)%nat) by apply repeat_length.
    destruct (ft_surj (S h) t1 Hh L1) as [p1 E1]. destruct (ft_surj (S h) t0 Hh L0) as [p0 E0]. subst t1 t0.
    rewrite split_ok in H by assumption. cbn [bind] in H.
    apply bind_Ok in H. destruct H as [[[zr0 zr1] pr] [Hr H]].
    apply IH in Hr; [|lia|apply ft_length|apply ft_length]. destruct Hr as [a [b [-> ->]]].
    rewrite merge_ok in H by assumption. cbn [bind] in H.
    rewrite cpoly_sub_ok in H by assumption. cbn [bind] in H.
    apply bind_Ok in H. destruct H as [tm [Em H]]. apply bind_Ok in H. destruct H as [tn [En H]].
    apply bind_Ok in H. destruct H as [[u v] [Es H]].
    assert (Ln : @length Cx tn = (2 ^ S h)%nat).
    { unfold cpoly_add, zipw in En. apply forn_len in En; [etransitivity; [exact En|]; apply ft_length|]. intros i s s' Hs.
      apply bind_Ok in Hs. destruct Hs as [x [_ Hs]]. apply bind_Ok in Hs. destruct Hs as [y [_ Hs]]. apply bind_Ok in Hs. destruct Hs as [w [_ Hs]].
      apply wr_len in Hs. exact Hs. }
    destruct (ft_surj (S h) tn Hh Ln) as [pn Ep]. subst tn. rewrite split_ok in Es by assumption. injection Es as <- <-.
    apply bind_Ok in H. destruct H as [[[zl0 zl1] pl'] [Hl H]].
    apply IH in Hl; [|lia|apply ft_length|apply ft_length]. destruct Hl as [c [d [-> ->]]].
    rewrite merge_ok in H by assumption. cbn [bind] in H.
    destruct (emb_pint h a b) as [pab Eab]. destruct (emb_pint h c d) as [pcd Ecd].
    exists pcd, pab. rewrite Eab, Ecd.
    assert (X0 := f_equal (fun r => match r with Ok (a, _, _) => a | _ => [] end) H). assert (X1 := f_equal (fun r => match r with Ok (_, a, _) => a | _ => [] end) H).
    cbv beta iota in X0, X1. split; symmetry; assumption.
Qed.

(** ** the target and the signature vector of an NTRU key *)
Section Key.
Variable lg : nat.
Hypothesis Hlg : (lg <= 10)%nat.
Variables f g F_ G_ : list Z.
Notation N := (2 ^ lg)%nat.
Notation B := (Bex lg f g F_ G_).
Notation zl a := (ofl Z 0%Z N a).
Notation zm := (Poly.pmul Z 0%Z Z.add Z.mul Z.opp).

Lemma mul_at_B (p b0 b1 b2 b3 : cpv N) (o : list Cx) : length o = N ->
  let BB := ft b0 ++ ft b1 ++ ft b2 ++ ft b3 in
  mul_at RF lg (ft p) 0 BB 0 o 0 = Ok (ft (cpmul p b0)) /\ mul_at RF lg (ft p) 0 BB N o 0 = Ok (ft (cpmul p b1)) /\
  mul_at RF lg (ft p) 0 BB (2 * N) o 0 = Ok (ft (cpmul p b2)) /\ mul_at RF lg (ft p) 0 BB (3 * N) o 0 = Ok (ft (cpmul p b3)).
Proof.
  intros Lo BB. assert (LT : forall p : cpv N, @length (D RF * D RF) (ft p) = N) by (intros; apply ft_length).
  assert (R0 : forall v : list Cx, length v = N -> rds (v : list (D RF * D RF)) 0 N = Ok v).
  { intros v Lv. rewrite rds_ok by (change (0 + N <= @length Cx v)%nat; lia). f_equal. apply slice_all. exact Lv. }
  assert (W0 : forall v : list Cx, length v = N -> wrs (o : list (D RF * D RF)) 0 v = Ok v).
  { intros v Lv. assert (W := wrs_app v [] o []). cbn [app length] in W. rewrite !app_nil_r in W. apply W. congruence. }
  unfold mul_at, BB. repeat split; rewrite (R0 (ft p)) by apply LT; cbn [bind];
  [rewrite (rds4_0 RF N)|rewrite (rds4_1 RF N)|rewrite (rds4_2 RF N)|rewrite (rds4_3 RF N)]; try apply LT; cbn [bind];
  rewrite (R0 o) by exact Lo; cbn [bind]; rewrite cpoly_mul_ok by exact Lo; cbn [bind]; apply W0; apply ft_length.
Qed.

Lemma nth_ft' (p : cpv N) i : (i < N)%nat -> nth i (ft p : list (D RF * D RF)) (c0 RF) = ev p i.
Proof. apply nth_ftz. Qed.
Definition kq : cpv N := pcst Cx Czero (Cof (/ 12289)).
Definition tp0 (c : list Z) : cpv N := cpmul kq (cpmul (emb (zl c)) (cpopp (emb (zl F_)))).
Definition tp1 (c : list Z) : cpv N := cpopp (cpmul kq (cpmul (emb (zl c)) (cpopp (emb (zl f))))).
Lemma ev_opp' (p : cpv N) i : ev (cpopp p) i = Copp (ev p i).
Proof. apply ev_opp. Qed.
Lemma target_ok (c : list Z) : length c = N -> sign_target RF exact_table lg B c = Ok (ft (tp0 c), ft (tp1 c)).
Proof.
  intros Lc. unfold sign_target. rewrite (of_ints_ok lg c Lc). cbn [bind]. rewrite fft_cpl by exact Hlg. cbn [bind].
  assert (LF : @length Cx (fresh RF N) = N) by apply repeat_length.
  destruct (mul_at_B (emb (zl c)) (emb (zl g)) (cpopp (emb (zl f))) (emb (zl G_)) (cpopp (emb (zl F_))) (fresh RF N) LF) as [_ [M1 [_ M3]]].
  unfold Bex. cbv zeta in M1, M3. rewrite M3. cbn [bind]. rewrite M1. cbn [bind]. unfold ft at 3 4.
  refine (fill2_ok Czero N _ _ _ _ _ (ft_length _ _) (ft_length _ _) _).
  intros i u v Hi Lu Lv Hu Hv.
  rewrite (rd_Ok _ i (c0 RF)) by (change (i < @length Cx u)%nat; lia). cbn [bind]. rewrite wr_Ok by (change (i < @length Cx u)%nat; lia). cbn [bind].
  rewrite (rd_Ok _ i (c0 RF)) by (change (i < @length Cx v)%nat; lia). cbn [bind]. rewrite wr_Ok by (change (i < @length Cx v)%nat; lia). cbn [bind].
  change (@nth (D RF * D RF) i u (c0 RF)) with (@nth Cx i u Czero). change (@nth (D RF * D RF) i v (c0 RF)) with (@nth Cx i v Czero).
  rewrite Hu, Hv. rewrite !nth_ft by exact Hi.
  assert (X : forall (p : cpv N), fcdiv RF (ev p i) (cof RF (fofz RF M_ff.Q)) = ev (cpmul kq p) i).
  { intros p. rewrite ev_mul. unfold kq. rewrite ev_cst. generalize (ev p i). intros [x y]. unfold M_ff.Q. apply Cx_eq; cbn; field. }
  rewrite !X. unfold tp0, tp1. rewrite ev_opp'. reflexivity.
Qed.

Lemma ft_ext (p p' : cpv N) : (forall i, (i < N)%nat -> ev p i = ev p' i) -> ft p = ft p'.
Proof. intros H. unfold ft. apply tab_ext. exact H. Qed.
Variable c : list Z.
Variables a0 a1 : zpv N.
Definition sv0 : zpv N := Poly.psub Z 0%Z Z.sub (Poly.psub Z 0%Z Z.sub (zl c) (zm a0 (zl g))) (zm a1 (zl G_)).
Definition sv1 : zpv N := Poly.padd Z 0%Z Z.add (zm a0 (zl f)) (zm a1 (zl F_)).
Hypothesis HN : ntru N f g F_ G_.
Lemma vector_raw : let d0 := cpsub (tp0 c) (emb a0) in let d1 := cpsub (tp1 c) (emb a1) in
  sign_vector RF lg B (ft (tp0 c)) (ft (tp1 c)) (ft (emb a0)) (ft (emb a1)) =
  Ok (ft (cpadd (cpmul d0 (emb (zl g))) (cpmul d1 (emb (zl G_)))), ft (cpadd (cpmul d0 (cpopp (emb (zl f)))) (cpmul d1 (cpopp (emb (zl F_)))))).
Proof.
  assert (LF : @length Cx (fresh RF N) = N) by apply repeat_length. unfold sign_vector.
  rewrite cpoly_sub_ok by exact LF. cbn [bind]. rewrite cpoly_sub_ok by exact LF. cbn [bind].
  set (d0 := cpsub (tp0 c) (emb a0)). set (d1 := cpsub (tp1 c) (emb a1)). cbv zeta.
  destruct (mul_at_B d0 (emb (zl g)) (cpopp (emb (zl f))) (emb (zl G_)) (cpopp (emb (zl F_))) (fresh RF N) LF) as [M00 [M01 _]].
  destruct (mul_at_B d1 (emb (zl g)) (cpopp (emb (zl f))) (emb (zl G_)) (cpopp (emb (zl F_))) (fresh RF N) LF) as [_ [_ [M12 _]]].
  destruct (mul_at_B d1 (emb (zl g)) (cpopp (emb (zl f))) (emb (zl G_)) (cpopp (emb (zl F_))) (ft (cpmul d1 (emb (zl G_)))) (ft_length _ _)) as [_ [_ [_ M13]]].
  cbv zeta in M00, M01, M12, M13. unfold Bex. rewrite M00. cbn [bind]. rewrite M12. cbn [bind]. rewrite cpoly_add_to_ok. cbn [bind].
  rewrite M01. cbn [bind]. rewrite M13. cbn [bind]. rewrite cpoly_add_to_ok. cbn [bind].
  reflexivity.
Qed.
Lemma vector_ok : sign_vector RF lg B (ft (tp0 c)) (ft (tp1 c)) (ft (emb a0)) (ft (emb a1)) = Ok (ft (emb sv0), ft (emb sv1)).
Proof.
  rewrite vector_raw. cbv zeta. set (d0 := cpsub (tp0 c) (emb a0)). set (d1 := cpsub (tp1 c) (emb a1)).
  assert (E : forall i, Csub (Cmul (ev (emb (zl f)) i) (ev (emb (zl G_)) i)) (Cmul (ev (emb (zl g)) i) (ev (emb (zl F_)) i)) = Cz q) by (intros i; apply (ntru_ev lg f g F_ G_ HN)).
  assert (E0 : ft (cpadd (cpmul d0 (emb (zl g))) (cpmul d1 (emb (zl G_)))) = ft (emb sv0)).
  { apply ft_ext. intros i Hi. unfold sv0. rewrite !emb_sub, !emb_mul. rewrite ?ev_add, ?ev_sub, ?ev_mul. unfold d0, d1, tp0, tp1, kq. rewrite !ev_sub, !ev_opp', !ev_mul, !ev_opp', !ev_cst.
    specialize (E i). revert E. generalize (ev (emb (zl f)) i) (ev (emb (zl g)) i) (ev (emb (zl F_)) i) (ev (emb (zl G_)) i) (ev (emb (zl c)) i) (ev (emb a0) i) (ev (emb a1) i).
    intros [f1 f2] [g1 g2] [F1 F2] [G1 G2] [c1 c2] [x1 x2] [y1 y2] E. apply (f_equal fst) in E as Er. apply (f_equal snd) in E as Ei. clear E.
    unfold Cz, Csub, Cmul, q in Er, Ei. cbn [fst snd] in Er, Ei.
    apply Cx_eq; unfold Cof; cx.
    - transitivity (/ 12289 * (c1 * (f1 * G1 - f2 * G2 - (g1 * F1 - g2 * F2)) - c2 * (f1 * G2 + f2 * G1 - (g1 * F2 + g2 * F1))) - (x1 * g1 - x2 * g2) - (y1 * G1 - y2 * G2)); [ring|]. rewrite Er, Ei. field.
    - transitivity (/ 12289 * (c2 * (f1 * G1 - f2 * G2 - (g1 * F1 - g2 * F2)) + c1 * (f1 * G2 + f2 * G1 - (g1 * F2 + g2 * F1))) - (x1 * g2 + x2 * g1) - (y1 * G2 + y2 * G1)); [ring|]. rewrite Er, Ei. field. }
  assert (E1 : ft (cpadd (cpmul d0 (cpopp (emb (zl f)))) (cpmul d1 (cpopp (emb (zl F_))))) = ft (emb sv1)).
  { apply ft_ext. intros i Hi. unfold sv1. rewrite emb_add, !emb_mul. rewrite ?ev_add, ?ev_sub, ?ev_mul, !ev_opp'. unfold d0, d1, tp0, tp1, kq. rewrite !ev_sub, !ev_opp', !ev_mul, !ev_opp', !ev_cst.
    generalize (ev (emb (zl f)) i) (ev (emb (zl F_)) i) (ev (emb (zl c)) i) (ev (emb a0) i) (ev (emb a1) i).
    intros [f1 f2] [F1 F2] [c1 c2] [x1 x2] [y1 y2]. apply Cx_eq; unfold Cof; cx; ring. }
  rewrite E0, E1. reflexivity.
Qed.
End Key.

(** norms *)
Lemma emb_norm n (p : zpv n) : Rsum n (fun j => sq (cc (emb p) j)) = IZR (sqnorm (pl Z n p)).
Proof.
  assert (L : length (pl Z n p) = n) by apply pl_length.
  transitivity (Rsum (length (pl Z n p)) (fun j => IZR (nth j (pl Z n p) 0%Z * nth j (pl Z n p) 0%Z))).
  - rewrite L. apply rsum_ext. intros j Hj. rewrite emb_c by exact Hj. unfold sq, Cz, pc. cbn [fst snd]. rewrite mult_IZR. ring.
  - clear L. generalize (pl Z n p). intros a. induction a as [|x a IH]; [reflexivity|]. cbn [length]. rewrite (rsum_S_l _ _ _ _ _ _ _ RTheory). cbn [nth]. rewrite IH.
    change (sqnorm (x :: a)) with (x * x + sqnorm a)%Z. rewrite plus_IZR. reflexivity.
Qed.
Lemma sqnorm_emb lg (p : zpv (2 ^ lg)) : sqrd_norm_c RF lg (ft (emb p)) = Ok (IZR (sqnorm (pl Z _ p))).
Proof. rewrite sqnorm_ok, emb_norm. reflexivity. Qed.

(** rounding an integer polynomial *)
Lemma Rround_IZR z : Rround (IZR z) = z.
Proof.
  unfold Rround. destruct (Rle_dec 0 (IZR z)) as [H|H].
  - apply Rfloor_eq. lra.
  - rewrite <- opp_IZR. rewrite (Rfloor_eq _ (- z)); [ring|]. lra.
Qed.
Lemma round_ok lg (p : zpv (2 ^ lg)) (out : list Z) : length out = (2 ^ lg)%nat -> Forall (fun x => -2147483648 <= x <= 2147483647)%Z (pl Z _ p) ->
  round_poly RF lg (cpl (emb p)) out = Ok (pl Z _ p).
Proof.
  intros Lo Hp. unfold round_poly. etransitivity; [refine (fill_ok Z 0%Z (2 ^ lg) _ out (fun i => pc Z 0%Z p i) Lo _)|].
  - intros i v Hi [L _]. rewrite (rd_Ok _ i (c0 RF)) by (change (i < @length Cx (cpl (emb p)))%nat; rewrite pl_length; exact Hi). cbn [bind].
    change (nth i (cpl (emb p) : list (D RF * D RF)) (c0 RF)) with (cc (emb p) i). rewrite emb_c by exact Hi. unfold Cz. cbn [fst].
    assert (Hx : (-2147483648 <= pc Z 0%Z p i <= 2147483647)%Z). { rewrite Forall_forall in Hp. apply Hp. unfold pc. apply nth_In. rewrite pl_length. exact Hi. }
    unfold to_i32. cbn [fround RF]. rewrite Rround_IZR, to_range_IZR by lia.
    cbn [bind]. rewrite wr_Ok by lia. reflexivity.
  - apply (f_equal Ok). apply (list_ext 0%Z); [rewrite tab_length, pl_length; reflexivity|]. rewrite tab_length. intros i Hi. rewrite nth_tab by exact Hi. reflexivity.
Qed.
