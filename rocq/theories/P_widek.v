(** P_widek.v -- how likely the vector drawn by one pass of signing is too long. *)
From Verif Require Import Base Ring Poly Spec SpecR SpecS SpecG SpecJ M_ff M_xform P_xform M_codec P_codec P_keys M_ntt M_sig P_sig P_comp P_sigx M_verify M_float M_exact P_exact M_samp M_fft M_ntru P_ntru M_tree P_tree P_brv P_cplx P_fft P_treex P_gs P_leaf P_sign P_signb P_signx P_signv P_norm P_normx P_defx.
From Verif Require Import P_prob P_dist P_joint P_gsum P_prog P_jprob P_pnorm P_pdef P_jfin P_jtot P_jkey P_jgauss P_coset P_jcoset P_loop P_loopk P_tot P_theta P_wide.
From Verif Require P_key P_nttx.
From Coq Require Import Lra.
Open Scope R_scope.
Notation ind := P_prob.ind.

Section Key.
Variable lg : nat.
Hypothesis Hlg : falcon_lg lg.
Notation N := (2 ^ lg)%nat.
Variables f g F_ G_ : list Z.
Hypotheses (Lf : length f = N) (Lg : length g = N) (LF : length F_ = N) (LG : length G_ = N).
Hypothesis HN : ntru N f g F_ G_.
Hypothesis HGS : gs_norm lg f g <= 117 / 100 * (117 / 100) * 12289.
Hypothesis Hsm : lg = 10%nat \/ sigma_min RF lg * sigma_min RF lg * gs_norm lg f g <= sigma_value RF lg * sigma_value RF lg.
Hypotheses (BF : Forall (fun x => Z.abs x <= 27000)%Z F_) (BG : Forall (fun x => Z.abs x <= 27000)%Z G_).
Notation norm2 c a := (IZR (sqnorm (psub N (psub N c (negacyclic N (fst a) g)) (negacyclic N (snd a) G_)) + sqnorm (padd N (negacyclic N (fst a) f) (negacyclic N (snd a) F_)))).
Notation pairN := (fun a : list Z * list Z => length (fst a) = N /\ length (snd a) = N).

Lemma wide_run c B T0 T t0 t1 M : length c = N -> Forall canon c -> ((lg + 1) * N <= length T0)%nat ->
  compute_matrix_B RF exact_table lg f g F_ G_ = Ok B -> compute_falcon_tree RF exact_table lg B T0 = Ok T ->
  sign_target RF exact_table lg B c = Ok (t0, t1) ->
  (forall cs Gs, length cs = (2 * N)%nat -> map stddev cs = leaf_twice lg T -> Forall (fun k => 12778 / 10000 <= stddev k <= 18205 / 10000) cs ->
      Forall2 (fun k G => gauss_sum (stddev k) (centre k) G) cs Gs -> Rprod Gs <= M) -> 0 <= M ->
  forall L, NoDup L -> Forall pairN L -> lsum (fun a => exp (- (100 / 121 * (norm2 c a / (2 * (sigma_value RF lg * sigma_value RF lg)))))) L <= cw ^ (2 * N) * M.
Proof.
  intros Lc Hc LT HB HT Ht HM M0 L NL DL. assert (lg1 : (1 <= lg <= 10)%nat) by (destruct Hlg as [->| ->]; lia). assert (lg10 : (lg <= 10)%nat) by lia.
  rewrite (matrix_B_ok lg lg10 f g F_ G_ Lf Lg LF LG) in HB. apply (f_equal (fun r => match r with Ok v => v | _ => [] end)) in HB. cbv beta iota in HB. subst B.
  destruct (tree_ok lg f g F_ G_ T0 lg1 Lf Lg LF LG HN LT) as [T' [E [LT' St]]].
  pose proof (eq_trans (eq_sym HT) E) as ET. apply (f_equal (fun r => match r with Ok v => v | _ => [] end)) in ET. cbv beta iota in ET. subst T'. clear E.
  rewrite target_ok in Ht by assumption.
  assert (X0 := f_equal (fun r => match r with Ok v => fst v | _ => [] end) Ht). assert (X1 := f_equal (fun r => match r with Ok v => snd v | _ => [] end) Ht).
  cbn [fst snd] in X0, X1. subst t0 t1. clear Ht HT.
  assert (EL := leaves_cells lg T _ St). assert (ETW := twice_cells lg T). rewrite <- EL in ETW. clear EL.
  assert (GL := root_okl lg Hlg f g F_ G_ Lf Lg LF LG HN HGS Hsm). assert (Sm : 12778 / 10000 <= sigma_min RF lg) by (destruct Hlg as [-> | ->]; unfold sigma_min, flit; cbn; lra). assert (Sg := sigma_small lg Hlg). assert (LTT : ((lg + 1) * N <= @length Cx T)%nat) by (eapply Nat.le_trans; [exact LT|apply Nat.eq_le_incl; symmetry; exact LT']). clear LT LT'.
  set (sg := sigma_value RF lg) in *. set (sm := sigma_min RF lg) in *. clearbody sg sm. clear Hsm HGS lg1.
  assert (exists h, lg = S h) as [h Eh] by (exists (lg - 1)%nat; destruct Hlg as [->| ->]; reflexivity). clear Hlg.
  revert Lf Lg LF LG HN Lc St lg10 GL LTT HM DL ETW. rewrite Eh. clear Eh. clear lg. intros.
  set (lg := S h) in *.
  set (e := fun a : list Z * list Z => (ft (emb (ofl Z 0%Z N (fst a))) : list Cx, ft (emb (ofl Z 0%Z N (snd a))) : list Cx)).
  set (dom := fun a : list Z * list Z => length (fst a) = N /\ length (snd a) = N).
  set (p := ff_prog RF exact_table T lg 0 (ft (tp0 lg F_ c)) (ft (tp1 lg f c)) 0).
  assert (Hs0 : sg <> 0) by lra.
  assert (Hex : forall x, exists cs : list call, pcalls p cs (e x)) by (intros x; exact (root_ex h lg10 f g F_ G_ Lf Lg LF LG HN T sg c Hs0 LTT St _ _)).
  assert (Zi : forall a b : list Z, length a = N -> length b = N -> ft (emb (ofl Z 0%Z N a)) = ft (emb (ofl Z 0%Z N b)) -> a = b).
  { intros a b La Lb E. rewrite <- (pl_ofl Z 0%Z N a La), <- (pl_ofl Z 0%Z N b Lb). f_equal. exact (ft_emb_inj lg lg10 _ _ E). }
  assert (Hinj : forall x y, dom x -> dom y -> e x = e y -> x = y).
  { intros [x0 x1] [y0 y1] [Dx0 Dx1] [Dy0 Dy1] E. unfold e in E. cbn [fst snd] in *. f_equal; apply Zi; try assumption; [exact (f_equal fst E)|exact (f_equal snd E)]. }
  assert (Res := root_res h lg10 f g F_ G_ Lf Lg LF LG HN T sg c Hs0 LTT St).
  destruct (idx_paths _ _ p e dom Hex Hinj L DL NL) as (V & NV & FV).
  assert (HP : forall a (cs : list call), pairN a -> pcalls p cs (e a) -> exp (- (100 / 121 * (norm2 c a / (2 * (sg * sg))))) <= cw ^ (2 * N) * M * jd RF JW p (map snd cs)).
  { intros a cs [La0 La1] Hcs. destruct (Res cs _ Hcs) as (a0 & a1 & Ez & Lcs & Ds & En).
    assert (E0 : ofl Z 0%Z N (fst a) = a0) by (apply (ft_emb_inj lg lg10); exact (f_equal fst Ez)). assert (E1 : ofl Z 0%Z N (snd a) = a1) by (apply (ft_emb_inj lg lg10); exact (f_equal snd Ez)). subst a0 a1.
    assert (Fs : Forall (fun k => 12778 / 10000 <= stddev k <= 18205 / 10000) cs).
    { rewrite Forall_forall. intros k Hk. assert (In (stddev k) (map stddev cs)) as Hin by (apply in_map; exact Hk). rewrite Ds in Hin. unfold twice in Hin. apply in_flat_map in Hin. destruct Hin as (y & Hy & Hin).
      apply in_rev, in_map_iff in Hy. destruct Hy as (lf & <- & Hlf). unfold ok_leaves in GL. rewrite Forall_forall in GL. assert (G := GL lf Hlf). cbn [In] in Hin. destruct Hin as [<-|[<-|[]]]; (split; [eapply Rle_trans; [exact Sm|apply G]|apply G]). }
    set (Gs := map (fun k => gsum (stddev k) (centre k)) cs). assert (F2 : Forall2 (fun k G => gauss_sum (stddev k) (centre k) G) cs Gs) by (unfold Gs; clear - Fs; induction Fs as [|k cs Hk F IH]; constructor; [apply gsum_ok; lra|exact IH]).
    destruct (prod_free cs cs Gs Gs eq_refl Fs F2 F2) as (P1 & _). assert (PM : Rprod Gs <= M) by (apply (HM cs Gs Lcs); [rewrite Ds; exact ETW|exact Fs|exact F2]).
    rewrite (jd_energy p cs (e a) Hcs Fs). fold Gs. rewrite Lcs, En. change (2 * 2 ^ S h)%nat with (2 * N)%nat. assert (C : 0 < cw ^ (2 * N)) by (apply pow_lt, cw_pos).
    match goal with |- exp ?u <= _ * (exp ?v / _) => assert (Euv : u = v) end.
    { f_equal. f_equal. unfold Rdiv. rewrite Rmult_comm. f_equal. f_equal. f_equal; f_equal.
      - unfold sv0. rewrite !pl_psub, !negacyclic_zmul, pl_ofl by exact Lc. reflexivity.
      - unfold sv1. rewrite pl_padd, !negacyclic_zmul. reflexivity. }
    rewrite Euv. match goal with |- exp ?v <= _ => assert (V0 := exp_pos v); set (ev := exp v) in * end. set (K := cw ^ (2 * N)) in *. clearbody ev K.
    apply Rle_trans with (K * Rprod Gs * (ev / (K * Rprod Gs))); [right; field; lra|]. apply Rmult_le_compat_r; [left; apply Rdiv_lt_0_compat; [exact V0|apply Rmult_lt_0_compat; lra]|]. apply Rmult_le_compat_l; lra. }
  apply Rle_trans with (cw ^ (2 * N) * M * lsum (jd RF JW p) V).
  - clear NV NL. rewrite <- lsum_scl. revert DL. induction FV as [|a vs L' V' (cs & Hcs & <-) FV IH]; intros DL; [unfold lsum; cbn [fold_right]; lra|]. inversion DL as [|? ? Da DL']. subst. unfold lsum in *. cbn [fold_right]. apply Rplus_le_compat; [apply HP; assumption|apply IH; exact DL'].
  - rewrite <- (Rmult_1_r (cw ^ (2 * N) * M)) at 2. apply Rmult_le_compat_l; [apply Rmult_le_pos; [apply pow_le; left; apply cw_pos|exact M0]|]. apply (jd_sum RF JW JW_pos JW_sum). exact NV.
Qed.

(** ** the bound on the norm is 1.21 times the expected squared norm *)
Lemma beta_sigma (n : Z) : (beta2 lg < n)%Z -> 121 / 100 * INR N <= IZR n / (2 * (sigma_value RF lg * sigma_value RF lg)).
Proof.
  intros H. assert (S := sigma_nz lg). assert (D : 0 < 2 * (sigma_value RF lg * sigma_value RF lg)) by (apply Rmult_lt_0_compat; [lra|apply Rmult_lt_0_compat; exact S]).
  assert (G : 121 / 100 * INR N * (2 * (sigma_value RF lg * sigma_value RF lg)) <= IZR n).
  { apply Rle_trans with (IZR (beta2 lg + 1)); [|apply IZR_le; lia]. rewrite INR_IZR_INZ. destruct Hlg as [-> | ->].
    - rewrite sigma_9. change (Z.of_nat (2 ^ 9)) with 512%Z. change (beta2 9 + 1)%Z with 34034727%Z. lra.
    - rewrite sigma_10. change (Z.of_nat (2 ^ 10)) with 1024%Z. change (beta2 10 + 1)%Z with 70265243%Z. lra. }
  apply Rmult_le_reg_r with (2 * (sigma_value RF lg * sigma_value RF lg)); [exact D|]. replace (IZR n / (2 * (sigma_value RF lg * sigma_value RF lg)) * (2 * (sigma_value RF lg * sigma_value RF lg))) with (IZR n) by (field; change (sigma_value RF lg <> 0); lra). exact G.
Qed.
Lemma exp_021 : exp (- (21 / 100)) <= 8106 / 10000.
Proof. apply (exp_ub (21 / 100) (98696077 / 100000000)). repeat split; lra. Qed.
Lemma shrink n (x r : R) : (1 <= n)%nat -> 0 <= x <= 9809 / 10000 -> 1 <= r <= 1 + / 100000 -> x ^ n * (r * r) <= (981 / 1000) ^ n.
Proof.
  intros Hn Hx Hr. set (d := 1 / 9809). assert (E : 981 / 1000 = 9809 / 10000 * (1 + d)) by (unfold d; lra). rewrite E, Rpow_mult_distr. apply Rmult_le_compat; [apply pow_le; lra|apply Rmult_le_pos; lra|apply pow_incr; lra|].
  assert (P := poly n d ltac:(unfold d; lra)). apply Rle_trans with (1 + INR n * d); [|exact P]. assert (1 <= INR n) by (apply (le_INR 1); exact Hn). assert (d <= INR n * d) by (rewrite <- (Rmult_1_l d) at 1; apply Rmult_le_compat_r; [unfold d; lra|exact H]).
  assert (r * r <= (1 + / 100000) * (1 + / 100000)) by (apply Rmult_le_compat; lra). unfold d in *. lra.
Qed.
Lemma cw_sq : 0 <= cw * cw * (8106 / 10000) <= 9809 / 10000.
Proof.
  assert (B := inv2_le 20 35 ltac:(lia)). assert (/ 2 ^ 20 = / 1048576) as E by (f_equal; lra). rewrite E in B. set (t := / 2 ^ 35) in *. clearbody t.
  assert (0 <= t * t <= / 1048576) by (split; [apply Rmult_le_pos; lra|]; rewrite <- (Rmult_1_r (/ 1048576)); apply Rmult_le_compat; lra). split; [apply Rmult_le_pos; [apply Rmult_le_pos; lra|lra]|]. nra.
Qed.

Variables B T0 T : list (D RF * D RF).
Hypothesis LT0 : ((lg + 1) * N <= length T0)%nat.
Hypothesis HB : compute_matrix_B RF exact_table lg f g F_ G_ = Ok B.
Hypothesis HT : compute_falcon_tree RF exact_table lg B T0 = Ok T.
Notation sg := (sigma_value RF lg).
Notation wt c a := (exp (- (norm2 c a / (2 * (sg * sg))))).
Lemma long_mass c t0 t1 Y : length c = N -> Forall canon c -> sign_target RF exact_table lg B c = Ok (t0, t1) -> total pairN (fun a => wt c a) Y ->
  forall L, NoDup L -> Forall pairN L ->
    Forall (fun a => beta2 lg < sqnorm (psub N (psub N c (negacyclic N (fst a) g)) (negacyclic N (snd a) G_)) + sqnorm (padd N (negacyclic N (fst a) f) (negacyclic N (snd a) F_)))%Z L ->
    lsum (fun a => wt c a) L <= (981 / 1000) ^ N * Y.
Proof.
  intros Lc Hc Ht TY L NL DL HL. destruct (gauss_msg lg Hlg f g F_ G_ Lf Lg LF LG HN HGS Hsm BF BG B T0 T LT0 HB HT c t0 t1 Lc Hc Ht) as (_ & cs & Gs & Y' & H1 & H2 & H3 & H4 & H5 & H6 & H7 & _).
  rewrite <- (total_unique _ _ _ _ TY H6) in *. clear H6 Y'. set (r := 1 + INR (2 * N) * / 2 ^ 36) in *.
  assert (N2 : (2 * N <= 2048)%nat) by (destruct Hlg as [-> | ->]; apply Nat.leb_le; vm_compute; reflexivity). assert (N1 : (1 <= N)%nat) by (apply Nat.neq_0_lt_0, Nat.pow_nonzero; lia).
  assert (Hr : 1 <= r <= 1 + / 100000).
  { assert (I2 : INR (2 * N) <= 2048) by (apply (le_INR _ 2048) in N2; eapply Rle_trans; [exact N2|]; rewrite INR_IZR_INZ; change (Z.of_nat 2048) with 2048%Z; lra). assert (I0 := pos_INR (2 * N)).
    assert (B36 := inv2_le 30 36 ltac:(lia)). assert (E30 : / 2 ^ 30 = / 1073741824) by (f_equal; lra). rewrite E30 in B36. unfold r.
    assert (0 <= INR (2 * N) * / 2 ^ 36 <= 2048 * / 1073741824) by (split; [apply Rmult_le_pos; lra|apply Rmult_le_compat; lra]). lra. }
  assert (HM : forall cs' Gs', length cs' = (2 * N)%nat -> map stddev cs' = leaf_twice lg T -> Forall (fun k => 12778 / 10000 <= stddev k <= 18205 / 10000) cs' ->
      Forall2 (fun k G => gauss_sum (stddev k) (centre k) G) cs' Gs' -> Rprod Gs' <= r * (r * Y)).
  { intros cs' Gs' A1 A2 A3 A4. destruct (prod_ratio (2 * N) cs' cs Gs' Gs A1 N2 ltac:(etransitivity; [exact A2|symmetry; exact H2]) A3 A4 H4) as [_ Q]. fold r in Q. eapply Rle_trans; [exact Q|]. apply Rmult_le_compat_l; [lra|exact H7]. }
  assert (WR := wide_run c B T0 T t0 t1 (r * (r * Y)) Lc Hc LT0 HB HT Ht HM ltac:(apply Rmult_le_pos; [lra|apply Rmult_le_pos; lra]) L NL DL).
  set (b := exp (- (21 / 100)) ^ N).
  apply Rle_trans with (b * (cw ^ (2 * N) * (r * (r * Y)))).
  - eapply Rle_trans; [|apply Rmult_le_compat_l; [unfold b; apply pow_le; left; apply exp_pos|exact WR]]. rewrite <- lsum_scl. apply lsum_le_in. intros a Ha. rewrite Forall_forall in HL. assert (Q := beta_sigma _ (HL a Ha)).
    match goal with |- exp (- ?x) <= _ => set (u := x) in * end. unfold b. rewrite exp_pow, <- exp_plus. apply P_dist.exp_le. lra.
  - replace (b * (cw ^ (2 * N) * (r * (r * Y)))) with (b * cw ^ (2 * N) * (r * r) * Y) by ring. apply Rmult_le_compat_r; [lra|]. rewrite pow_mult. replace (cw ^ 2) with (cw * cw) by ring. unfold b. rewrite <- Rpow_mult_distr. assert (C := cw_sq). assert (X := exp_021). assert (X0 := exp_pos (- (21 / 100))). assert (C2 : 0 <= cw * cw) by (left; apply Rmult_lt_0_compat; apply cw_pos).
    apply shrink; [exact N1| |exact Hr]. rewrite Rmult_comm. split; [apply Rmult_le_pos; [exact C2|lra]|]. eapply Rle_trans; [apply Rmult_le_compat_l; [exact C2|exact X]|]. apply C.
Qed.
End Key.

Lemma total_split {X} (dec : forall x y : X, {x = y} + {x <> y}) (dom : X -> Prop) (w : X -> R) (t : X -> bool) LS W e : (forall x, 0 <= w x) -> total dom w W -> (forall x, In x LS <-> dom x /\ t x = true) ->
  (forall L, NoDup L -> Forall (fun x => dom x /\ t x = false) L -> lsum w L <= e) -> W <= lsum w LS + e.
Proof.
  intros Hw TW HS HL. apply (total_ub dom w W _ TW). intros L NL DL.
  assert (Sp : lsum w L = lsum w (filter t L) + lsum w (filter (fun x => negb (t x)) L)).
  { clear. induction L as [|x L IH]; [unfold lsum; cbn; ring|]. cbn [filter]. destruct (t x); cbn [negb]; unfold lsum in *; cbn [fold_right]; rewrite IH; ring. }
  rewrite Sp. rewrite Forall_forall in DL. apply Rplus_le_compat.
  - apply lsum_incl; [exact dec|exact Hw|apply NoDup_filter; exact NL|]. intros x Hx. left. apply filter_In in Hx. apply HS. split; [apply DL|]; apply Hx.
  - apply HL; [apply NoDup_filter; exact NL|]. rewrite Forall_forall. intros x Hx. apply filter_In in Hx. split; [apply DL, Hx|]. destruct (t x); [destruct Hx; discriminate|reflexivity].
Qed.
Definition shortb (lg : nat) (s : list Z * list Z) : bool := (sqnorm (fst s) + sqnorm (snd s) <=? beta2 lg)%Z.
Lemma coset_dec lg c h s : {coset lg c h s} + {~ coset lg c h s}.
Proof.
  unfold coset. destruct (Nat.eq_dec (length (fst s)) (2 ^ lg)) as [A|A]; [|right; tauto]. destruct (Nat.eq_dec (length (snd s)) (2 ^ lg)) as [B|B]; [|right; tauto].
  destruct (list_eq_dec Z.eq_dec (modq (fst s)) (s1_residues lg c (snd s) h)) as [C|C]; [left|right]; tauto.
Qed.
Lemma short_list lg c h : exists LS, NoDup LS /\ forall s, In s LS <-> coset lg c h s /\ shortb lg s = true.
Proof.
  set (M := Z.to_nat (beta2 lg)). exists (nodup pair_dec (filter (fun s => (if coset_dec lg c h s then true else false) && shortb lg s) (list_prod (cube M (2 ^ lg)) (cube M (2 ^ lg))))).
  split; [apply NoDup_nodup|]. intros s. rewrite nodup_In, filter_In, Bool.andb_true_iff. destruct (coset_dec lg c h s) as [G|G]; split; try tauto; try (intros [_ [? _]]; discriminate).
  intros [_ Sh]. split; [|split; [reflexivity|exact Sh]]. unfold shortb in Sh. apply Z.leb_le in Sh. destruct G as (L1 & L2 & _). assert (P1 := sqnorm_pos (fst s)). assert (P2 := sqnorm_pos (snd s)). destruct s as [s1 s2]. cbn [fst snd] in *.
  apply in_prod; apply cube_in; try assumption; apply coeff_sqrt; lia.
Qed.

(** ** in terms of keys *)
Notation wts lg s := (exp (- (IZR (sqnorm (fst s) + sqnorm (snd s)) / (2 * (sigma_value RF lg * sigma_value RF lg))))).
Notation tmass lg := ((981 / 1000) ^ (2 ^ lg)).
Section Pass.
Variable lg : nat.
Hypothesis Hlg : falcon_lg lg.
Notation N := (2 ^ lg)%nat.
Variables f g F_ G_ : list Z.
Hypothesis K : sound_key lg f g F_ G_.
Variables h0 h : list Z.
Hypothesis Lh0 : length h0 = N.
Hypothesis HK : compute_public_key lg f g h0 = Ok h.
Variables B T0 T : list (D RF * D RF).
Hypothesis LT0 : ((lg + 1) * N <= length T0)%nat.
Hypothesis HB : compute_matrix_B RF exact_table lg f g F_ G_ = Ok B.
Hypothesis HT : compute_falcon_tree RF exact_table lg B T0 = Ok T.
Variables (c : list Z) (t0 t1 : list (D RF * D RF)).
Hypothesis Lc : length c = N.
Hypothesis Hc : Forall canon c.
Hypothesis Ht : sign_target RF exact_table lg B c = Ok (t0, t1).
Notation vec a := (psub N (psub N c (negacyclic N (fst a) g)) (negacyclic N (snd a) G_), padd N (negacyclic N (fst a) f) (negacyclic N (snd a) F_)).
Notation V a := (values lg (map Cz a)).
Notation sm := (sigma_min RF lg).
Notation p := (ff_prog RF exact_table T lg 0 t0 t1 0).
Notation E k e := (ex RF (fun x : R => x) (thx sm) k p e).
Notation pairN := (fun a : list Z * list Z => length (fst a) = N /\ length (snd a) = N).

Lemma long_sum : exists W, 0 < W /\ total (coset lg c h) (fun s => wts lg s) W /\ (forall L, NoDup L -> Forall (fun s => coset lg c h s /\ shortb lg s = false) L -> lsum (fun s => wts lg s) L <= tmass lg * W) /\
  forall k n L, (36 * k * N <= n)%nat -> NoDup L -> Forall (coset lg c h) L ->
    lsum (fun s => Rabs (prob n (fun w => draws lg B t0 t1 (ff_sampling RF exact_table k lg 0 t0 t1 T 0 sm (stream w) 0) s) - wts lg s / W)) L <= INR (2 * N) * (/ 2 ^ 34 + (11 / 12) ^ k).
Proof.
  destruct K as (Lf & Lg & LF & LG & HN & HGS & Hsm & BF & BG & Sf & Sg & HI).
  destruct (coset_gauss lg Hlg f g F_ G_ Lf Lg LF LG HN HGS Hsm BF BG Sf Sg HI h0 h Lh0 HK B T0 T LT0 HB HT c t0 t1 Lc Hc Ht) as (W & W0 & TW & TV). exists W. split; [exact W0|]. split; [exact TW|]. split; [|exact TV].
  destruct (lattice_gauss lg Hlg f g F_ G_ Lf Lg LF LG HN HGS Hsm BF BG B T0 T LT0 HB HT c t0 t1 Lc Hc Ht) as (W' & _ & TW' & _).
  assert (I1 := fun a => vec_in lg Hlg f g F_ G_ Lf Lg LF LG HN Sf Sg HI h0 h Lh0 HK c a Lc). assert (I2 := fun a b => vec_inj lg f g F_ G_ HN c a b Lc). assert (I3 := fun s => vec_sur lg Hlg f g F_ G_ Lf Lg HN Sf Sg HI h0 h Lh0 HK c s Lc).
  assert (EW := total_unique _ _ _ _ TW (move_total pairN (coset lg c h) (fun a => vec a) I1 I2 I3 (fun s => wts lg s) W' TW')). subst W'.
  intros L NL DL. destruct (move_list pairN (coset lg c h) (fun a => vec a) I3 L NL) as (A & NA & DA & <-); [eapply Forall_impl; [|exact DL]; intros s Hs; apply Hs|].
  rewrite lsum_map. refine (long_mass lg Hlg f g F_ G_ Lf Lg LF LG HN HGS Hsm BF BG B T0 T LT0 HB HT c t0 t1 W Lc Hc Ht TW' A NA DA _).
  rewrite Forall_forall in *. intros a Ha. destruct (DL (vec a)) as [_ Q]; [exact (in_map (fun a => vec a) A a Ha)|]. unfold shortb in Q. apply Z.leb_gt in Q. exact Q.
Qed.
Lemma short_val a n : pairN a -> short_draw lg B t0 t1 (Ok (V (fst a), V (snd a), n)) = shortb lg (vec a).
Proof.
  intros Da. destruct K as (Lf & Lg & LF & LG & HN & HGS & Hsm & BF & BG & Sf & Sg & HI). unfold short_draw.
  rewrite (vector_val lg Hlg f g F_ G_ Lf Lg LF LG HN HGS Hsm HI h0 h Lh0 HK B T0 T LT0 HB HT c t0 t1 Lc Ht a Da), !sqnorm_emb, !(pl_ofl Z 0%Z N) by apply tab_length. unfold shortb. rewrite <- plus_IZR. cbn [fst snd].
  match goal with |- context[Rle_dec (IZR ?x) (IZR ?y)] => destruct (Rle_dec (IZR x) (IZR y)) as [H|H]; destruct (Z.leb_spec x y) as [H'|H'] end; try reflexivity; exfalso; [apply le_IZR in H; lia|apply H, IZR_le; exact H'].
Qed.
Lemma short_sum LS k n : NoDup LS -> (forall s, In s LS <-> coset lg c h s /\ shortb lg s = true) -> (36 * k * N <= n)%nat ->
  prob n (fun w => short_draw lg B t0 t1 (ff_sampling RF exact_table k lg 0 t0 t1 T 0 sm (stream w) 0)) =
  lsum (fun s => prob n (fun w => draws lg B t0 t1 (ff_sampling RF exact_table k lg 0 t0 t1 T 0 sm (stream w) 0) s)) LS.
Proof.
  intros NS HS Hn. assert (K' := K). destruct K' as (Lf & Lg & LF & LG & HN & HGS & Hsm & BF & BG & Sf & Sg & HI).
  destruct (prog_law lg Hlg f g F_ G_ Lf Lg LF LG HN HGS Hsm BF BG HI h0 h Lh0 HK B T0 T LT0 HB HT c t0 t1 Lc Hc Ht) as (L & Hd & Hr). assert (Hn' : (18 * k * (2 * N) <= n)%nat) by lia.
  rewrite (lsum_ext _ (fun s => Pd lg B T t0 t1 k s)) by (intros s _; exact (Pd_prob lg Hlg f g F_ G_ Lf Lg LF LG HN HGS Hsm BF BG HI h0 h Lh0 HK B T0 T LT0 HB HT c t0 t1 Lc Hc Ht k n s Hn)).
  transitivity (E k (fun z => ind (short_draw lg B t0 t1 (Ok (fst z, snd z, 0%nat))))).
  { etransitivity; [|exact (prob_ex RF sm (fun x => x) (fun x => x) (thx sm) k p (fun z => short_draw lg B t0 t1 (Ok (fst z, snd z, 0%nat))) (2 * N) n L Hd Hn')].
    apply prob_ext. intros w. rewrite run_ff. destruct (@run RF sm _ k (stream w) p 0) as [[z m]| |]; reflexivity. }
  unfold Pd. rewrite <- (ex_lsum RF (fun x : R => x) (thx sm) k p (fun s z => ind (draws lg B t0 t1 (Ok (fst z, snd z, 0%nat)) s)) LS). apply ex_ext. intros z Hz. destruct (Hr z Hz) as (a & Da & ->). cbn [fst snd].
  etransitivity; [apply f_equal; exact (short_val a 0 Da)|].
  assert (Cs := vec_in lg Hlg f g F_ G_ Lf Lg LF LG HN Sf Sg HI h0 h Lh0 HK c a Lc Da).
  symmetry. etransitivity; [apply (lsum_ext _ (fun s => ind (if pair_dec s (vec a) then true else false) * 1))|].
  - intros s Hs. apply HS in Hs. destruct Hs as ((S0 & S1 & _) & _). etransitivity; [apply f_equal; exact (draws_val lg Hlg f g F_ G_ Lf Lg LF LG HN HGS Hsm HI h0 h Lh0 HK B T0 T LT0 HB HT c t0 t1 Lc Ht a s 0 Da (conj S0 S1))|symmetry; apply Rmult_1_r].
  - rewrite lsum_pick by exact NS. destruct (in_dec pair_dec (vec a) LS) as [I|I].
    + apply HS in I. destruct I as [_ ->]. reflexivity.
    + destruct (shortb lg (vec a)) eqn:Q; [|reflexivity]. exfalso. apply I, HS. split; [exact Cs|exact Q].
Qed.
Lemma lsum_near {X} (u v : X -> R) L : lsum v L - lsum (fun s => Rabs (u s - v s)) L <= lsum u L.
Proof. induction L as [|x L IH]; unfold lsum in *; cbn [fold_right]; [lra|]. assert (A := Rle_abs (- (u x - v x))). rewrite Rabs_Ropp in A. lra. Qed.
Lemma pass_short : forall k n, (36 * k * N <= n)%nat ->
  1 - tmass lg - INR (2 * N) * (/ 2 ^ 34 + (11 / 12) ^ k) <= prob n (fun w => short_draw lg B t0 t1 (ff_sampling RF exact_table k lg 0 t0 t1 T 0 sm (stream w) 0)).
Proof.
  intros k n Hn. destruct long_sum as (W & W0 & TW & HL & TV). destruct (short_list lg c h) as (LS & NS & HS). rewrite (short_sum LS k n NS HS Hn).
  assert (Hp : forall s : list Z * list Z, 0 <= wts lg s) by (intros; left; apply exp_pos).
  assert (TS := total_split pair_dec (coset lg c h) (fun s => wts lg s) (shortb lg) LS W (tmass lg * W) Hp TW HS HL).
  assert (TV' := TV k n LS Hn NS ltac:(rewrite Forall_forall; intros s Hs; apply HS; exact Hs)).
  eapply Rle_trans; [|exact (lsum_near _ (fun s => wts lg s / W) LS)].
  assert (X : 1 - tmass lg <= lsum (fun s => wts lg s / W) LS); [|lra].
  rewrite (lsum_ext _ (fun s => / W * wts lg s)) by (intros; apply Rmult_comm). rewrite lsum_scal. apply Rmult_le_reg_l with W; [exact W0|]. rewrite <- Rmult_assoc, Rinv_r, Rmult_1_l by lra. lra.
Qed.
Lemma mass_long : exists W WL, 0 < W /\ total (coset lg c h) (fun s => wts lg s) W /\ total (too_long lg c h) (fun s => wts lg s) WL /\ WL <= tmass lg * W.
Proof.
  destruct long_sum as (W & W0 & TW & HL & _).
  assert (HL' : forall L, NoDup L -> Forall (too_long lg c h) L -> lsum (fun s => wts lg s) L <= tmass lg * W).
  { intros L NL DL. apply HL; [exact NL|]. eapply Forall_impl; [|exact DL]. intros s [A1 A2]. split; [exact A1|]. apply Z.leb_gt. exact A2. }
  destruct (total_ex (too_long lg c h) (fun s => wts lg s) _ HL') as [WL TL]. exists W, WL. split; [exact W0|]. split; [exact TW|]. split; [exact TL|]. exact (total_ub _ _ _ _ TL HL').
Qed.
End Pass.

(** ** the failure is rare *)
Lemma sq_step (x y : R) n : 0 <= x -> x * x <= y -> x ^ (2 * n) <= y ^ n.
Proof. intros H0 H. rewrite pow_mult. apply pow_incr. split; [apply pow_le; exact H0|]. replace (x ^ 2) with (x * x) by ring. exact H. Qed.
Lemma tmass_small lg : falcon_lg lg -> tmass lg <= 6 / 100000.
Proof.
  intros Hlg. assert (H : (981 / 1000) ^ 512 <= 6 / 100000).
  { change 512%nat with (2 * (2 * (2 * (2 * (2 * (2 * (2 * (2 * (2 * 1)))))))))%nat.
    eapply Rle_trans; [apply (sq_step _ (962361 / 1000000)); lra|]. eapply Rle_trans; [apply (sq_step _ (926139 / 1000000)); lra|]. eapply Rle_trans; [apply (sq_step _ (857734 / 1000000)); lra|].
    eapply Rle_trans; [apply (sq_step _ (735708 / 1000000)); lra|]. eapply Rle_trans; [apply (sq_step _ (541267 / 1000000)); lra|]. eapply Rle_trans; [apply (sq_step _ (292970 / 1000000)); lra|].
    eapply Rle_trans; [apply (sq_step _ (85832 / 1000000)); lra|]. eapply Rle_trans; [apply (sq_step _ (7368 / 1000000)); lra|]. eapply Rle_trans; [apply (sq_step _ (55 / 1000000)); lra|]. lra. }
  destruct Hlg as [-> | ->]; [exact H|]. change (2 ^ 10)%nat with (512 + 512)%nat. rewrite pow_add. assert (0 <= (981 / 1000) ^ 512) by (apply pow_le; lra). set (x := (981 / 1000) ^ 512) in *. clearbody x. assert (x * x <= x * 1) by (apply Rmult_le_compat_l; lra). lra.
Qed.
Lemma err_small lg k : falcon_lg lg -> (512 <= k)%nat -> INR (2 * 2 ^ lg) * (/ 2 ^ 34 + (11 / 12) ^ k) <= 1 / 1000000.
Proof.
  intros Hlg Hk. assert (I : INR (2 * 2 ^ lg) <= 2048).
  { assert (Hn : (2 * 2 ^ lg <= 2048)%nat) by (destruct Hlg as [-> | ->]; apply Nat.leb_le; vm_compute; reflexivity). apply (le_INR _ 2048) in Hn. eapply Rle_trans; [exact Hn|]. rewrite INR_IZR_INZ. change (Z.of_nat 2048) with 2048%Z. lra. }
  assert (I0 := pos_INR (2 * 2 ^ lg)). assert (A : (11 / 12) ^ k <= / 2 ^ 34).
  { replace k with (512 + (k - 512))%nat by lia. rewrite pow_add. apply Rle_trans with ((11 / 12) ^ 512 * 1).
    - apply Rmult_le_compat_l; [apply pow_le; lra|]. rewrite <- (pow1 (k - 512)). apply pow_incr. lra.
    - rewrite Rmult_1_r. change 512%nat with (8 * 64)%nat. rewrite pow_mult. apply Rle_trans with ((1 / 2) ^ 64); [apply pow_incr; split; [apply pow_le; lra|lra]|]. apply Rle_trans with ((1 / 2) ^ 34).
      + change 64%nat with (34 + 30)%nat. rewrite pow_add. rewrite <- (Rmult_1_r ((1 / 2) ^ 34)) at 2. apply Rmult_le_compat_l; [apply pow_le; lra|]. rewrite <- (pow1 30). apply pow_incr. lra.
      + right. replace (1 / 2) with (/ 2) by lra. apply pow_inv. }
  assert (E34 : 0 < / 2 ^ 34 <= / 10000000000) by (split; [apply Rinv_0_lt_compat, pow_lt; lra|apply Rinv_le_contravar; [lra|]; apply Rle_trans with (2 ^ 34); [lra|lra]]).
  assert (P0 : 0 <= (11 / 12) ^ k) by (apply pow_le; lra).
  apply Rle_trans with (2048 * (2 * / 10000000000)); [apply Rmult_le_compat; lra|lra].
Qed.
Lemma pass_rare lg (Hlg : falcon_lg lg) f g F_ G_ : sound_key lg f g F_ G_ -> forall h0 h, length h0 = (2 ^ lg)%nat -> compute_public_key lg f g h0 = Ok h ->
  forall B T0 T, ((lg + 1) * 2 ^ lg <= length T0)%nat -> compute_matrix_B RF exact_table lg f g F_ G_ = Ok B -> compute_falcon_tree RF exact_table lg B T0 = Ok T ->
  forall c t0 t1, length c = (2 ^ lg)%nat -> Forall canon c -> sign_target RF exact_table lg B c = Ok (t0, t1) ->
  forall k n, (512 <= k)%nat -> (36 * k * 2 ^ lg <= n)%nat ->
    9999 / 10000 < prob n (fun w => short_draw lg B t0 t1 (ff_sampling RF exact_table k lg 0 t0 t1 T 0 (sigma_min RF lg) (stream w) 0)).
Proof.
  intros K h0 h Lh HK B T0 T LT HB HT c t0 t1 Lc Hc Ht k n Hk Hn. eapply Rlt_le_trans; [|exact (pass_short lg Hlg f g F_ G_ K h0 h Lh HK B T0 T LT HB HT c t0 t1 Lc Hc Ht k n Hn)].
  assert (A := tmass_small lg Hlg). assert (C := err_small lg k Hlg Hk). lra.
Qed.
Lemma mass_any_long lg (Hlg : falcon_lg lg) f g F_ G_ : sound_key lg f g F_ G_ -> forall h0 h, length h0 = (2 ^ lg)%nat -> compute_public_key lg f g h0 = Ok h ->
  forall c, length c = (2 ^ lg)%nat -> Forall canon c ->
  let weight := fun s : list Z * list Z => exp (- (IZR (sqnorm (fst s) + sqnorm (snd s)) / (2 * (sigma_value RF lg * sigma_value RF lg)))) in
  exists W WL, 0 < W /\ total (coset lg c h) weight W /\ total (too_long lg c h) weight WL /\ WL <= (981 / 1000) ^ (2 ^ lg) * W.
Proof.
  intros K h0 h Lh HK c Lc Hc wt. assert (K' := K). destruct K' as (Lf & Lg & LF & LG & HN & _). assert (lg1 : (1 <= lg <= 10)%nat) by (destruct Hlg as [->| ->]; lia).
  set (T0 := repeat Czero ((lg + 1) * 2 ^ lg)). assert (LT : ((lg + 1) * 2 ^ lg <= length T0)%nat) by (unfold T0; rewrite repeat_length; lia).
  destruct (tree_ok lg f g F_ G_ T0 lg1 Lf Lg LF LG HN LT) as [T [E _]].
  eapply (mass_long lg Hlg f g F_ G_ K h0 h Lh HK _ T0 T LT (matrix_B_ok lg (proj2 lg1) f g F_ G_ Lf Lg LF LG) E c _ _ Lc Hc). apply target_ok; assumption || lia.
Qed.
Lemma k_pass : exists h B T t0 t1, compute_public_key 9 P_key.kf P_key.kg (repeat 0%Z 512) = Ok h /\ sound_key 9 P_key.kf P_key.kg P_key.kF P_key.kG /\
  compute_matrix_B RF exact_table 9 P_key.kf P_key.kg P_key.kF P_key.kG = Ok B /\ compute_falcon_tree RF exact_table 9 B (repeat Czero (10 * 512)) = Ok T /\
  Forall canon (repeat 7%Z 512) /\ sign_target RF exact_table 9 B (repeat 7%Z 512) = Ok (t0, t1).
Proof.
  assert (K := sound_k). assert (K' := K). destruct K' as (Lf & Lg & LF & LG & HN & HGS & Hsm & BF & BG & Sf & Sg & HI).
  destruct (P_nttx.public_key_spec 9 P_key.kf P_key.kg (repeat 0%Z 512) (or_introl eq_refl) Lf Lg (repeat_length _ _) Sf Sg HI) as (h & Eh & _).
  assert (LT : ((9 + 1) * 2 ^ 9 <= length (repeat Czero (10 * 512)))%nat) by (rewrite repeat_length; apply Nat.leb_le; reflexivity).
  destruct (tree_ok 9 P_key.kf P_key.kg P_key.kF P_key.kG _ ltac:(lia) Lf Lg LF LG HN LT) as [T [E _]].
  exists h. eexists. exists T. eexists. eexists. split; [exact Eh|]. split; [exact K|]. split; [apply (matrix_B_ok 9 ltac:(lia) P_key.kf P_key.kg P_key.kF P_key.kG Lf Lg LF LG)|]. split; [exact E|]. split.
  - rewrite Forall_forall. intros x Hx. apply repeat_spec in Hx. subst x. unfold canon, q. lia.
  - apply target_ok; first [assumption|lia|apply repeat_length].
Qed.
