(** P_defx.v -- no undefined operation while signing in exact arithmetic: the root of the tree and the signing functions. *)
From Verif Require Import Base Ring Poly Spec SpecR SpecS M_ff M_ntt M_xform P_ff P_xform M_codec P_codec M_sig P_sig M_verify P_verify M_float M_exact P_exp P_exact M_samp M_fft M_ntru P_ntru P_keygen M_tree P_tree P_brv P_cplx P_fft P_treex P_gs P_leaf P_sign P_signb P_signx P_signv P_norm P_normx P_def.
From Verif Require P_verifyx.
From Coq Require Import Ring_theory Ring Lra Psatz.
Notation pev := Poly.pev.
Open Scope R_scope.

Lemma values_bound lg (a : list Z) A i : (i < 2 ^ lg)%nat -> (0 <= A)%Z -> Forall (fun x => Z.abs x <= A)%Z a ->
  sq (ev (emb (ofl Z 0%Z (2 ^ lg) a)) i) <= IZR (Z.of_nat (2 ^ lg) * Z.of_nat (2 ^ lg) * (A * A)).
Proof.
  intros Hi HA Ha. assert (T := Rsum_term (2 ^ lg) (fun i => sq (ev (emb (ofl Z 0%Z (2 ^ lg) a)) i)) i Hi ltac:(intros; apply sq_nonneg)). cbv beta in T.
  eapply Rle_trans; [exact T|]. rewrite parseval.
  assert (B : forall n, (n <= 2 ^ lg)%nat -> Rsum n (fun j => sq (cc (emb (ofl Z 0%Z (2 ^ lg) a)) j)) <= INR n * IZR (A * A)).
  { induction n as [|n IH]; intros Hn; cbn [rsum]; [simpl; lra|]. rewrite S_INR. specialize (IH ltac:(lia)). rewrite emb_c, pc_ofl by lia. unfold sq at 2, Cz. cbn [fst snd].
    assert (X := nth_abs_bound a A n HA Ha). assert (Y : (nth n a 0 * nth n a 0 <= A * A)%Z) by nia. apply IZR_le in Y. rewrite mult_IZR in Y. lra. }
  specialize (B _ (le_n _)). rewrite !mult_IZR, <- !INR_IZR_INZ. assert (P := INR_pow2_pos lg). rewrite mult_IZR in B. set (n := INR _) in *. nra.
Qed.
Lemma int_coef lg (a b : list Z) A B k : (k < 2 ^ lg)%nat -> (0 <= A)%Z -> (0 <= B)%Z -> Forall (fun x => Z.abs x <= A)%Z a -> Forall (fun x => Z.abs x <= B)%Z b ->
  Rabs (fst (cc (cpmul (kq lg) (cpmul (emb (ofl Z 0%Z (2 ^ lg) a)) (cpopp (emb (ofl Z 0%Z (2 ^ lg) b))))) k)) <= IZR (Z.of_nat (2 ^ lg) * (A * B)) / 12289.
Proof.
  intros Hk HA HB Ha Hb. rewrite <- emb_opp, <- emb_mul.
  assert (Eb : popp Z 0%Z Z.opp (ofl Z 0%Z (2 ^ lg) b) = ofl Z 0%Z (2 ^ lg) (map Z.opp b)).
  { apply (pv_ext Z 0%Z). intros i Hi. rewrite pc_opp, !pc_ofl by exact Hi. change 0%Z with (- 0)%Z at 2. rewrite map_nth. reflexivity. }
  rewrite Eb. set (m := @Poly.pmul Z 0%Z Z.add Z.mul Z.opp _ _ _).
  assert (Em : pc Z 0%Z m k = nth k (negacyclic (2 ^ lg) a (map Z.opp b)) 0%Z) by (rewrite negacyclic_zmul; reflexivity).
  assert (Bm := negacyclic_bound (2 ^ lg) a (map Z.opp b) A B k Hk HA HB Ha).
  rewrite <- Em in Bm. assert (Bm' : (Z.abs (pc Z 0%Z m k) <= Z.of_nat (2 ^ lg) * (A * B))%Z).
  { apply Bm. rewrite Forall_forall in Hb |- *. intros x Hx. apply in_map_iff in Hx. destruct Hx as [y [<- Hy]]. rewrite Z.abs_opp. apply Hb, Hy. }
  clear Bm Em Eb. clearbody m.
  assert (Ek : cc (cpmul (kq lg) (emb m)) k = Cmul (Cof (/ 12289)) (Cz (pc Z 0%Z m k))).
  { rewrite <- (emb_c _ m k Hk). rewrite (pc_mul Cx Czero Cadd Cmul Copp) by exact Hk.
    rewrite <- (nconv_cst_l _ _ _ _ _ _ _ Cring (2 ^ lg) (Cof (/ 12289)) (cc (emb m)) k Hk).
    apply nconv_ext; [exact Hk| |reflexivity]. intros j Hj. unfold kq, pcst. rewrite pc_mkp by exact Hj. reflexivity. }
  rewrite Ek. unfold Cof, Cz. cbn. replace (/ 12289 * IZR (pc Z 0%Z m k) - 0 * 0) with (IZR (pc Z 0%Z m k) / 12289) by (unfold Rdiv; ring).
  unfold Rdiv. rewrite Rabs_mult, (Rabs_pos_eq (/ 12289)) by lra. apply Rmult_le_compat_r; [lra|]. rewrite <- abs_IZR. apply IZR_le. exact Bm'.
Qed.

Lemma cc_opp n (p : cpv n) k : (k < n)%nat -> Rabs (fst (cc (cpopp p) k)) = Rabs (fst (cc p k)).
Proof. intros Hk. rewrite (pc_opp Cx Czero Copp) by exact Hk. generalize (cc p k). intros [x y]. cbn. apply Rabs_Ropp. Qed.

Section Root.
Variable h : nat.
Notation lg := (S h).
Hypothesis Hlg : (lg <= 10)%nat.
Variables f g F_ G_ : list Z.
Notation N := (2 ^ lg)%nat.
Hypotheses (Lf : length f = N) (Lg : length g = N) (LF : length F_ = N) (LG : length G_ = N).
Hypothesis HN : ntru N f g F_ G_.
Hypothesis HGS : gs_norm lg f g <= 16823.
Hypotheses (BF : Forall (fun x => Z.abs x <= 27000)%Z F_) (BG : Forall (fun x => Z.abs x <= 27000)%Z G_).
Notation zl a := (ofl Z 0%Z N a).

Lemma N1024 : INR N <= 1024.
Proof. replace 1024 with (INR (2 ^ 10)); [apply le_INR, Nat.pow_le_mono_r; lia|]. rewrite INR_IZR_INZ. f_equal. Qed.
Lemma dd_upper i : (i < N)%nat -> dd lg f g i <= INR N * 16823.
Proof.
  intros Hi. assert (A := AM_dd lg f g Lf Lg). assert (PN := INR_pow2_pos lg). assert (Dp : forall i, 0 < dd lg f g i) by (intros j; eapply dd_pos; eassumption).
  assert (T := Rsum_term N (dd lg f g) i Hi ltac:(intros j _; left; apply Dp)).
  assert (M : IZR (sqnorm f + sqnorm g) <= gs_norm lg f g) by apply Rmax_l. rewrite <- A in M. unfold AM in M.
  apply Rle_trans with (1 := T). apply (Rmult_le_compat_l (INR N)) in M; [|lra]. replace (INR N * (Rsum N (dd lg f g) / INR N)) with (Rsum N (dd lg f g)) in M by (field; lra).
  nra.
Qed.
Lemma dd_lower i : (i < N)%nat -> 87 / 10 <= dd lg f g i.
Proof.
  intros Hi. assert (A := IM_dd lg f g Lf Lg). assert (PN := INR_pow2_pos lg). assert (Dp : forall i, 0 < dd lg f g i) by (intros j; eapply dd_pos; eassumption).
  assert (T := Rsum_term N (fun i => / dd lg f g i) i Hi ltac:(intros j _; left; apply Rinv_0_lt_compat, Dp)). cbv beta in T.
  assert (M : gs_second lg f g <= gs_norm lg f g) by apply Rmax_r. unfold IM in A. 
  assert (Eq : IZR (q * q) = 151019521) by reflexivity. rewrite Eq in A.
  assert (S0 : Rsum N (fun i => / dd lg f g i) = INR N * (gs_second lg f g / 151019521)) by (rewrite <- A; field; lra).
  rewrite S0 in T. assert (N4 := N1024). assert (D := Dp i). set (d := dd lg f g i) in *. clearbody d.
  assert (T2 : / d <= 1024 * (16823 / 151019521)).
  { apply Rle_trans with (1 := T). assert (gs_second lg f g / 151019521 <= 16823 / 151019521) by lra.
    apply Rle_trans with (INR N * (16823 / 151019521)); [apply Rmult_le_compat_l; lra|apply Rmult_le_compat_r; lra]. }
  apply (Rmult_le_compat_r d) in T2; [|lra]. rewrite Rinv_l in T2 by lra. lra.
Qed.
Lemma ddo_lower i : (i < N)%nat -> 87 / 10 <= ddo lg f g i.
Proof.
  intros Hi. unfold ddo. replace (IZR (q * q)) with 151019521 by reflexivity. assert (U := dd_upper i Hi). assert (D := dd_lower i Hi). assert (N4 := N1024).
  assert (U' : dd lg f g i <= 1024 * 16823) by lra. set (d := dd lg f g i) in *. clearbody d.
  apply Rmult_le_reg_r with d; [lra|]. replace (151019521 / d * d) with 151019521 by (field; lra). lra.
Qed.

Notation w := (vgram RF N (ft (emb (zl G_))) (ft (cpopp (emb (zl F_)))) (ft (emb (zl g))) (ft (cpopp (emb (zl f))))).
(** the correction at the root *)
Lemma root_corr (sigma : R) c (pl : cpv N) (a1 : zpv N) : 0 < sigma < 1684 / 10 -> vl10 RF N (rv N (dd lg f g)) w = ft pl ->
  Rsum N (fun i => ddo lg f g i * sq (Csub (ev (tp1 lg f c) i) (ev (emb a1) i))) <= INR N * (2 * (sigma * sigma) * 112 * INR N) ->
  forall k, (k < N)%nat -> Rabs (fst (cc (cpmul (cpsub (tp1 lg f c) (emb a1)) pl) k)) <= 260000000.
Proof.
  intros Hs El HE k Hk. assert (Zn : (Z.of_nat N <= 1024)%Z). { change 1024%Z with (Z.of_nat (2 ^ 10)). apply inj_le, Nat.pow_le_mono_r; lia. }
  assert (Dp : forall i, 0 < dd lg f g i) by (intros j; eapply dd_pos; eassumption).
  apply (coef_bound lg); [exact Hk|lra|].
  assert (PN := INR_pow2_pos lg). assert (N4 := N1024).
  assert (A : 151019521 * Rsum N (fun i => sq (ev (cpmul (cpsub (tp1 lg f c) (emb a1)) pl) i)) <= 1530000000000000 * Rsum N (fun i => ddo lg f g i * sq (Csub (ev (tp1 lg f c) i) (ev (emb a1) i)))).
  { rewrite <- !Rsum_scal. apply Rsum_le. intros i Hi. rewrite ev_mul, ev_sub, sq_mul.
    assert (Epl : ev pl i = (fst (wv h f g F_ G_ i) / dd lg f g i, snd (wv h f g F_ G_ i) / dd lg f g i)).
    { rewrite <- (nth_ft lg pl i Hi). etransitivity; [apply (f_equal (fun l => nth i l Czero)); symmetry; exact El|]. apply root_l10; assumption. }
    assert (W : sq (wv h f g F_ G_ i) = dd lg f g i * dd2 lg F_ G_ i - IZR (q * q)).
    { rewrite <- (gram10_sq lg f g F_ G_ HN i Hi). f_equal. symmetry. apply (wv_ok h f g F_ G_ i Hi). }
    assert (D2 : dd2 lg F_ G_ i <= 1530000000000000).
    { unfold dd2. assert (V1 := values_bound lg F_ 27000 i Hi ltac:(lia) BF). assert (V2 := values_bound lg G_ 27000 i Hi ltac:(lia) BG).
      assert (V3 : IZR (Z.of_nat (2 ^ S h) * Z.of_nat (2 ^ S h) * (27000 * 27000)) <= IZR (1024 * 1024 * (27000 * 27000))).
      { apply IZR_le. apply Z.mul_le_mono_nonneg_r; [lia|]. apply Z.mul_le_mono_nonneg; lia. }
      change (IZR (1024 * 1024 * (27000 * 27000))) with 764411904000000 in V3. lra. }
    assert (Es : sq (ev pl i) = sq (wv h f g F_ G_ i) / (dd lg f g i * dd lg f g i)).
    { rewrite Epl. generalize (Dp i). generalize (dd lg f g i) (wv h f g F_ G_ i). intros d [u v] P. unfold sq. cbn [fst snd]. field. lra. }
    assert (S1 := sq_nonneg (Csub (ev (tp1 lg f c) i) (ev (emb a1) i))). rewrite Es, W. unfold ddo. replace (IZR (q * q)) with 151019521 by reflexivity.
    generalize dependent (sq (Csub (ev (tp1 lg f c) i) (ev (emb a1) i))). intros x S1. generalize dependent (dd2 lg F_ G_ i). intros e _ D2. generalize (Dp i). generalize (dd lg f g i). intros d P.
    assert (Pi : 0 < / d) by (apply Rinv_0_lt_compat; exact P).
    replace (151019521 * (x * ((d * e - 151019521) / (d * d)))) with ((151019521 * / d) * x * (e - 151019521 * / d)) by (field; lra).
    replace (1530000000000000 * (151019521 / d * x)) with ((151019521 * / d) * x * 1530000000000000) by (field; lra).
    apply Rmult_le_compat_l; [apply Rmult_le_pos; lra|lra]. }
  set (S0 := rsum _ _ _ _ _) in A |- *. set (S1 := rsum _ _ _ _ _) in A, HE. clearbody S0 S1. set (n := INR (2 ^ S h)) in *. clearbody n. clear - A HE Hs PN N4.
  assert (B : 2 * (sigma * sigma) * 112 * n <= 6505000000 ). { assert (sigma * sigma <= 28359) by nra. assert (0 <= sigma * sigma) by nra. set (s := sigma * sigma) in *. clearbody s. apply Rle_trans with (2 * 28359 * 112 * n); [apply Rmult_le_compat_r; lra|lra]. }
  apply (Rmult_le_compat_l n) in B; [|lra]. lra.
Qed.

Lemma root_defined fuel smin rng (T : list Cx) (sigma : R) c pos : 0 < sigma < 1684 / 10 -> 0 <= smin < 254 / 100 -> (forall i, byte (rng i)) ->
  Forall canon c -> ((lg + 1) * N <= length T)%nat ->
  stored RF N lg T 0 (ntree RF sigma (root_tree lg f g F_ G_)) -> good_leaves (leaves (ntree RF sigma (root_tree lg f g F_ G_))) ->
  ff_sampling RF exact_table fuel lg 0 (ft (tp0 lg F_ c)) (ft (tp1 lg f c)) T 0 smin rng pos <> UB.
Proof.
  intros Hs Hm Hg Hc LT St GL. rewrite (root_tree_node h f g F_ G_ HN) in St, GL. cbn [ntree stored] in St. cbn [ntree P_tree.leaves] in GL. destruct St as [Ll [Nl [Sa Sb]]].
  apply Forall_app in GL. destruct GL as [Ga Gb].
  assert (Dp : forall i, 0 < dd lg f g i) by (intros i; eapply dd_pos; eassumption). assert (Q := qq_pos).
  assert (Hsym : forall i, (i < N)%nat -> wv h f g F_ G_ (N - 1 - i) = Cconj (wv h f g F_ G_ i)).
  { intros i Hi. unfold wv. rewrite !ev_compl by exact Hi. rewrite Cconj_add, !Cconj_mul. reflexivity. }
  destruct (herm_list lg _ Hlg Ll) as [pl [El Hpl]].
  { intros i Hi. assert (PN := pow2_pos lg). etransitivity; [apply root_l10; (assumption || lia)|]. etransitivity; [|symmetry; apply f_equal; apply root_l10; assumption]. rewrite Hsym by exact Hi. rewrite dd_sym by exact Hi.
    generalize (Dp i). generalize (dd lg f g i) (wv h f g F_ G_ i). intros d [u v] P. apply Cx_eq; cx; field; lra. }
  assert (Symo : forall i, (i < N)%nat -> ddo lg f g (N - 1 - i) = ddo lg f g i) by (intros i Hi; unfold ddo; rewrite dd_sym by exact Hi; reflexivity).
  assert (Cb : sub_claim fuel smin rng T sigma h 1 (0 + N + 2 ^ h) (ddo lg f g) (leaves (ntree RF sigma (sub h (rv N (ddo lg f g)))))).
  { apply sub_run; [lra|exact Hlg| |exact Symo|exact Sb].
    intros i Hi. unfold ddo. apply Rdiv_lt_0_compat; [exact Q|apply Dp]. }
  assert (EN : (2 ^ S h = 2 * 2 ^ h)%nat) by reflexivity.
  assert (HKK : 2 * (sigma * sigma) * 112 * 1024 <= 27400 * 27400 * (87 / 10)) by nra.
  assert (Da : sub_def fuel smin rng T 27400 h 1 (0 + N)).
  { apply (sub_defined fuel smin rng T sigma ltac:(lra) Hg Hm (87 / 10) 27400 ltac:(lra) ltac:(lra) HKK h 1 _ (dd lg f g)); [exact Hlg|exact dd_lower|apply dd_sym| |exact Sa|exact Ga].
    change (1 + h)%nat with lg. simpl Nat.mul in LT. nia. }
  assert (Db : sub_def fuel smin rng T 27400 h 1 (0 + N + 2 ^ h)).
  { apply (sub_defined fuel smin rng T sigma ltac:(lra) Hg Hm (87 / 10) 27400 ltac:(lra) ltac:(lra) HKK h 1 _ (ddo lg f g)); [exact Hlg|exact ddo_lower|exact Symo| |exact Sb|exact Gb].
    change (1 + h)%nat with lg. simpl Nat.mul in LT. nia. }
  assert (Bc : Forall (fun x => Z.abs x <= 12289)%Z c) by (eapply Forall_impl; [|exact Hc]; intros x Hx; unfold canon, q in Hx; cbv beta in *; lia).
  assert (Zn : (Z.of_nat N <= 1024)%Z). { change 1024%Z with (Z.of_nat (2 ^ 10)). apply inj_le, Nat.pow_le_mono_r; lia. }
  assert (Mf : Forall (fun x => Z.abs x <= 27000)%Z f).
  { rewrite Forall_forall. intros x Hx. assert (X := sqnorm_coeff _ _ Hx). assert (Y := sqnorm_pos g). 
    assert (M : IZR (sqnorm f + sqnorm g) <= gs_norm lg f g) by apply Rmax_l. assert (M' : (sqnorm f + sqnorm g <= 16823)%Z) by (apply le_IZR; lra). nia. }
  assert (IB : forall b k, (k < N)%nat -> Forall (fun x => Z.abs x <= 27000)%Z b -> Rabs (fst (cc (cpmul (kq lg) (cpmul (emb (zl c)) (cpopp (emb (zl b))))) k)) <= 27648000).
  { intros b k Hk Hb. apply Rle_trans with (1 := int_coef lg c b 12289 27000 k Hk ltac:(lia) ltac:(lia) Bc Hb). apply IZR_le in Zn. rewrite mult_IZR. change (IZR (12289 * 27000)) with 331803000. lra. }
  assert (C0 : forall k, (k < N)%nat -> Rabs (fst (cc (tp0 lg F_ c) k)) <= 27648000) by (intros k Hk; apply IB; assumption).
  assert (C1 : forall k, (k < N)%nat -> Rabs (fst (cc (tp1 lg f c) k)) <= 27648000) by (intros k Hk; unfold tp1; rewrite cc_opp by exact Hk; apply IB; assumption).
  assert (H0 := herm_tp0 h F_ c). assert (H1 := herm_tp1 h f c).
  assert (Hh10 : INR h <= 10). { replace 10 with (INR 10) by (rewrite INR_IZR_INZ; reflexivity). apply le_INR. lia. } assert (Hh0 := pos_INR h).
  apply (node_def fuel smin rng T sigma ltac:(lra) Hg h 0 0 _ (ddo lg f g) _ (tp0 lg F_ c) (tp1 lg f c) pl 27648000 260000000 pos Hlg ltac:(simpl Nat.mul in LT; nia) Ll Nl El Cb Gb H0 H1 Hpl).
  - apply (Db _ _ 27648000); [apply herm_real; [exact Hlg|exact H1]|exact C1|nra].
  - intros p' pos' Rp Cp. apply (Da _ _ (27648000 + 260000000)); [exact Rp|exact Cp|nra].
  - exact C0.
  - intros a1 HE. apply (root_corr sigma); assumption.
Qed.
End Root.

Lemma sigma_small lg : falcon_lg lg -> 0 < sigma_value RF lg < 1684 / 10.
Proof. intros [-> | ->]; [rewrite sigma_9|rewrite sigma_10]; lra. Qed.
Lemma smin_small lg : falcon_lg lg -> 0 <= sigma_min RF lg < 254 / 100.
Proof. intros [-> | ->]; unfold sigma_min, flit; cbn; lra. Qed.

Section Key.
Variable lg : nat.
Hypothesis Hlg : falcon_lg lg.
Notation N := (2 ^ lg)%nat.
Variables f g F_ G_ : list Z.
Hypothesis Lf : length f = N.
Hypothesis Lg : length g = N.
Hypothesis LF : length F_ = N.
Hypothesis LG : length G_ = N.
Hypothesis HN : ntru N f g F_ G_.
Hypothesis HGS : gs_norm lg f g <= 117 / 100 * (117 / 100) * 12289.
Lemma Hlg1 : (1 <= lg <= 10)%nat. Proof. destruct Hlg as [->| ->]; lia. Qed.
Lemma Hlg10 : (lg <= 10)%nat. Proof. apply Hlg1. Qed.

Lemma root_good : good_leaves (leaves (ntree RF (sigma_value RF lg) (root_tree lg f g F_ G_))).
Proof.
  unfold good_leaves. rewrite ntree_leaves. rewrite Forall_forall. intros x Hx. apply in_map_iff in Hx. destruct Hx as [y [<- Hy]].
  assert (RL := root_leaves lg Hlg10 f g F_ G_ Lf Lg LF LG HN (proj1 Hlg1)). rewrite Forall_forall in RL. destruct (RL y Hy) as [R0 [R1 [R2 R3]]].
  assert (R := leaf_range lg (gs_norm lg f g) (fst y) Hlg R1 (conj (inv_bound _ _ _ qq_pos R1 R2 R3) R3) HGS).
  unfold nleaf. cbn [fst cof]. change (127 / 100 <= sigma_value RF lg / sqrt (fst y) <= 18205 / 10000).
  revert R. unfold leaf_lo, leaf_hi. destruct Hlg as [->| ->]; cbn [Nat.eqb]; lra.
Qed.

Hypotheses (BF : Forall (fun x => Z.abs x <= 27000)%Z F_) (BG : Forall (fun x => Z.abs x <= 27000)%Z G_).

Lemma ffsamp_defined fuel rng T0 T c pos : byte_stream rng -> Forall canon c -> ((lg + 1) * N <= length T0)%nat ->
  compute_falcon_tree RF exact_table lg (Bex lg f g F_ G_) T0 = Ok T ->
  ff_sampling RF exact_table fuel lg 0 (ft (tp0 lg F_ c)) (ft (tp1 lg f c)) T 0 (sigma_min RF lg) rng pos <> UB.
Proof.
  intros Hr Hc LT HT. destruct (tree_ok lg f g F_ G_ T0 Hlg1 Lf Lg LF LG HN LT) as [T' [E [L St]]].
  pose proof (eq_trans (eq_sym HT) E) as ET. apply (f_equal (fun r => match r with Ok v => v | _ => [] end)) in ET. cbv beta iota in ET. subst T'. clear E.
  assert (RG := root_good). assert (S1 := sigma_small lg Hlg). assert (S2 := smin_small lg Hlg). assert (HGS' : gs_norm lg f g <= 16823) by lra.
  assert (LT' : ((lg + 1) * N <= length T)%nat) by (change (list (D RF * D RF)) with (list Cx) in L; rewrite L; exact LT). assert (H10 := Hlg10). assert (H1 := Hlg1).
  clear HT L LT HGS. revert S1 S2 RG St. generalize (sigma_value RF lg) (sigma_min RF lg). intros sg sm S1 S2 RG St. 
  assert (exists h, lg = S h) as [h Eh] by (exists (lg - 1)%nat; lia). clear Hlg. subst lg.
  exact (root_defined h H10 f g F_ G_ Lf Lg LF LG HN HGS' BF BG fuel sm rng T sg c pos S1 S2 Hr Hc LT' St RG).
Qed.

Lemma compress_def s (sig : list Z) : (sig_bytes lg <= length sig)%nat -> length s = N -> (sqnorm s <= beta2 lg)%Z ->
  exists b e, compress_sig lg s sig = Ok (b, e) /\ length e = length sig.
Proof.
  intros Ls L2 Hb. destruct (P_sigx.compress_no_oob lg s (repeat 0%Z (sig_bytes lg)) Hlg L2 (repeat_length _ _) Hb) as [b [e [E _]]].
  destruct (compress_split lg s _ b e Hlg ltac:(rewrite repeat_length; apply le_n) E) as [body [Lb [_ H]]]. specialize (H sig Ls). exists b. eexists. split; [exact H|].
  rewrite !app_length, firstn_length, skipn_length, Lb. assert (41 <= sig_bytes lg)%nat by (destruct Hlg as [->| ->]; vm_compute; lia). lia.
Qed.

Lemma sign_loop_defined sfuel rng T0 T c : byte_stream rng -> length c = N -> Forall canon c -> ((lg + 1) * N <= length T0)%nat ->
  compute_falcon_tree RF exact_table lg (Bex lg f g F_ G_) T0 = Ok T ->
  forall fuel pos sig, (sig_bytes lg <= length sig)%nat ->
  sign_loop RF exact_table fuel sfuel lg (Bex lg f g F_ G_) T (ft (tp0 lg F_ c)) (ft (tp1 lg f c)) (sigma_min RF lg) (beta2 lg) rng pos sig <> UB /\
  forall sig' pos', sign_loop RF exact_table fuel sfuel lg (Bex lg f g F_ G_) T (ft (tp0 lg F_ c)) (ft (tp1 lg f c)) (sigma_min RF lg) (beta2 lg) rng pos sig = Ok (sig', pos') -> length sig' = length sig.
Proof.
  intros Hr Lc Hc LT HT. assert (H10 := Hlg10). induction fuel as [|fuel IH]; intros pos sig Ls; cbn [sign_loop]; [split; discriminate|].
  assert (D := ffsamp_defined sfuel rng T0 T c pos Hr Hc LT HT).
  destruct (ff_sampling RF exact_table sfuel lg 0 (ft (tp0 lg F_ c)) (ft (tp1 lg f c)) T 0 (sigma_min RF lg) rng pos) as [[[z0 z1] p]| |] eqn:ES; cbn [bind];
    [|destruct (D eq_refl)|split; discriminate].
  destruct (ffsamp_int sfuel _ rng T lg 0 _ _ _ _ _ _ _ H10 (ft_length lg _) (ft_length lg _) ES) as [a0 [a1 [-> ->]]].
  rewrite vector_ok by assumption. cbn [bind]. rewrite !sqnorm_emb. cbn [bind].
  set (w0 := sv0 lg g G_ c a0 a1). set (w1 := sv1 lg f F_ a0 a1).
  destruct (fle RF _ _) eqn:E5; [|apply IH; exact Ls].
  assert (E5' : (sqnorm (pl Z _ w0) + sqnorm (pl Z _ w1) <= beta2 lg)%Z).
  { cbn in E5. revert E5. destruct (Rle_dec _ _) as [K|]; [|discriminate]. intros _. rewrite <- plus_IZR in K. apply le_IZR in K. exact K. }
  assert (Bb2 : (beta2 lg <= 1000000000)%Z) by (destruct Hlg as [->| ->]; vm_compute; congruence).
  rewrite ifft_ok by exact H10. cbn [bind].
  rewrite round_ok; [|apply repeat_length|rewrite Forall_forall; intros x Hin; assert (X := sqnorm_coeff _ _ Hin); assert (Y := sqnorm_pos (pl Z (2 ^ lg) w0)); nia].
  cbn [bind]. assert (Y := sqnorm_pos (pl Z (2 ^ lg) w0)).
  destruct (compress_def (pl Z N w1) sig Ls (pl_length _ _ _) ltac:(lia)) as [b [e [Ec Le]]]. rewrite Ec. cbn [bind].
  destruct b; [|rewrite <- Le; apply IH; lia]. split; [discriminate|]. intros sig' pos' H. injection H as <- <-. exact Le.
Qed.

Lemma sign_bt_defined xof fuel sfuel B T0 T msg sig rng pos : (forall a, byte_stream (xof a)) -> byte_stream rng ->
  (sig_bytes lg <= length sig)%nat -> ((lg + 1) * N <= length T0)%nat ->
  compute_matrix_B RF exact_table lg f g F_ G_ = Ok B -> compute_falcon_tree RF exact_table lg B T0 = Ok T ->
  sign_bt RF exact_table fuel sfuel xof lg B T msg sig rng pos <> UB.
Proof.
  intros Hx Hr Ls LT HB HT. assert (H10 := Hlg10).
  rewrite (matrix_B_ok lg H10 f g F_ G_ Lf Lg LF LG) in HB. apply (f_equal (fun r => match r with Ok v => v | _ => [] end)) in HB. cbv beta iota in HB. subst B.
  unfold sign_bt, rng_read. set (salt := map _ _). change (length (repeat 0%Z N)) with (length (repeat 0%Z N)).
  destruct (proj1 (P_verifyx.hash_point_spec xof lg salt msg (Hx _)) sfuel (repeat 0%Z N) (repeat_length _ _)) as [[c [E [_ [Lc Hc]]]]|E]; rewrite E; cbn [bind]; [|discriminate].
  rewrite target_ok by assumption. cbn [bind].
  replace (beta2_values lg) with (beta2 lg) by (destruct Hlg as [->| ->]; reflexivity).
  destruct (sign_loop_defined sfuel rng T0 T c Hr Lc Hc LT HT fuel (pos + 40) sig Ls) as [D1 D2].
  destruct (sign_loop RF exact_table fuel sfuel lg (Bex lg f g F_ G_) T (ft (tp0 lg F_ c)) (ft (tp1 lg f c)) (sigma_min RF lg) (beta2 lg) rng (pos + 40) sig) as [[s p]| |] eqn:EL; cbn [bind];
    [|destruct (D1 eq_refl)|discriminate].
  specialize (D2 _ _ eq_refl). assert (41 <= sig_bytes lg)%nat by (destruct Hlg as [->| ->]; vm_compute; lia).
  rewrite wr_Ok by lia. cbn [bind]. rewrite wrs_ok; [discriminate|]. unfold salt. rewrite map_length, seq_length, upd_length. lia.
Qed.

Lemma sign_defined xof fuel sfuel skey msg sig rng : (forall a, byte_stream (xof a)) -> byte_stream rng -> (sig_bytes lg <= length sig)%nat ->
  is_poly_invertible lg f = Ok true -> decode_skey lg skey (repeat 0%Z N) (repeat 0%Z N) (repeat 0%Z N) = Ok (true, (f, g, F_)) ->
  sign RF exact_table fuel sfuel xof lg skey msg sig rng <> UB.
Proof.
  intros Hx Hr Ls HI HD. unfold sign. rewrite HD. cbn [bind negb]. assert (H10 := Hlg10).
  assert (Sf : Forall smallq f).
  { rewrite Forall_forall. intros x Hx0. assert (X := sqnorm_coeff _ _ Hx0). assert (Y := sqnorm_pos g). 
    assert (M : IZR (sqnorm f + sqnorm g) <= gs_norm lg f g) by apply Rmax_l. assert (M' : (sqnorm f + sqnorm g <= 16823)%Z) by (apply le_IZR; lra). unfold smallq. unfold q. nia. }
  assert (RG : Forall (fun x => -2147483648 <= x <= 2147483647)%Z G_). { refine (Forall_impl _ _ BG). intros x Hx0. cbv beta in Hx0. lia. }
  rewrite (recompute_G_ok lg f g F_ G_ (repeat 0%Z N) H10 Lf Lg LF LG (repeat_length _ _) HN RG); [|apply (invertible_nonzero lg f), (invertible_unit lg Hlg f Lf Sf HI)].
  cbn [bind]. rewrite matrix_B_ok by assumption. cbn [bind].
  assert (LT : ((lg + 1) * N <= length (fresh RF (N * (lg + 1))))%nat). { change (fresh RF (N * (lg + 1))) with (repeat (c0 RF) (N * (lg + 1))). rewrite repeat_length. lia. }
  destruct (tree_ok lg f g F_ G_ (fresh RF (N * (lg + 1))) Hlg1 Lf Lg LF LG HN LT) as [T [E [L St]]].
  assert (D := sign_bt_defined xof fuel sfuel (Bex lg f g F_ G_) _ T msg sig rng 0 Hx Hr Ls LT (matrix_B_ok lg H10 f g F_ G_ Lf Lg LF LG) E).
  rewrite E. cbn [bind]. destruct (sign_bt RF exact_table fuel sfuel xof lg _ T msg sig rng 0) as [[s p]| |]; [discriminate|destruct (D eq_refl)|discriminate].
Qed.
End Key.

Lemma keygen_sign_defined fk sfk fuel sfuel lg rngk rng pk0 sk0 pk sk xof msg sig f g F_ G_ p : falcon_lg lg ->
  (forall a, byte_stream (xof a)) -> byte_stream rngk -> byte_stream rng ->
  length pk0 = pkey_len lg -> length sk0 = skey_len lg -> (sig_bytes lg <= length sig)%nat ->
  keygen_bytes RF exact_table fk sfk lg pk0 sk0 rngk = Ok (pk, sk) ->
  ntru_gen RF exact_table fk sfk lg rngk 0 (repeat 0%Z (2 ^ lg)) (repeat 0%Z (2 ^ lg)) (repeat 0%Z (2 ^ lg)) (repeat 0%Z (2 ^ lg)) = Ok (f, g, F_, G_, p) ->
  Forall (fits (skey_modulus lg)) f -> Forall (fits (skey_modulus lg)) g -> Forall (fits 256) F_ -> Forall (fun x => Z.abs x <= 27000)%Z G_ ->
  sign RF exact_table fuel sfuel xof lg sk msg sig rng <> UB.
Proof.
  intros Hlg Hx Hk Hr Lpk Lsk Ls HK HG Ff Fg FF BG.
  assert (GS := gen_gs _ _ _ _ _ _ _ _ _ _ _ _ _ _ Hk Hlg (repeat_length _ _) (repeat_length _ _) (repeat_length _ _) (repeat_length _ _) HG).
  destruct (P_keygen.ntru_gen_spec RF exact_table fk sfk lg rngk 0 _ _ _ _ f g F_ G_ p P_keygen.small_exact_RF Hk Hlg (repeat_length _ _) (repeat_length _ _) (repeat_length _ _) (repeat_length _ _) HG)
    as (Lf & Lg & LF & LG & _ & _ & U & _ & HN).
  assert (Sf : Forall smallq f) by exact (Forall_impl _ (fun x => fits_bound lg x Hlg) Ff).
  assert (BF : Forall (fun x => Z.abs x <= 27000)%Z F_). { refine (Forall_impl _ _ FF). intros x Hf. unfold fits in Hf. change (256 / 2)%Z with 128%Z in Hf. lia. }
  assert (HNT : ntru (2 ^ lg) f g F_ G_) by (apply HN; assumption).
  assert (HI : is_poly_invertible lg f = Ok true). { destruct (P_ntt.is_poly_invertible_ok lg f Hlg Lf Sf) as (b0 & E1 & H1). rewrite E1. f_equal. apply H1. apply (proj2 (P_ntt.invertible_iff lg f Hlg Lf) U). }
  unfold keygen_bytes in HK. rewrite HG in HK. cbn [bind] in HK.
  apply bind_Ok in HK. destruct HK as [h [Eh HK]]. apply bind_Ok in HK. destruct HK as [pk' [Epk HK]]. apply bind_Ok in HK. destruct HK as [sk' [Esk HK]].
  assert (sk' = sk) by congruence. subst sk'.
  destruct (P_keys.skey_round lg f g F_ sk0 (repeat 0%Z (2 ^ lg)) (repeat 0%Z (2 ^ lg)) (repeat 0%Z (2 ^ lg)) Hlg Lf Lg LF Lsk (repeat_length _ _) (repeat_length _ _) (repeat_length _ _)) as [s [Es [_ [_ [_ Ds]]]]].
  assert (s = sk) by congruence. subst s.
  apply (sign_defined lg Hlg f g F_ G_ Lf Lg LF LG HNT GS BF BG xof fuel sfuel sk msg sig rng Hx Hr Ls HI). apply Ds; auto.
Qed.
