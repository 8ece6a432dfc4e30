(** P_fsafey.v -- ff_sampling in rounded arithmetic: subtrees. *)
From Verif Require Import Base Ring Poly Spec SpecR SpecF M_xform P_xform M_codec P_codec M_float M_exact P_exact M_samp M_fft M_ntru P_ntru M_tree P_brv P_cplx P_fft P_tree P_treex P_gs P_sign P_norm P_l2 P_err P_ferr P_near P_float P_fmerge P_fnorm P_fgs P_ftree P_ftreek P_fsafe P_fsafex.
From Verif Require P_def.
From Coq Require Import Ring_theory Ring Lra Psatz.
Open Scope R_scope.

Lemma pev_sub n (p r : cpv (2 * n)) : pev Cx Czero (cpsub p r) = cpsub (pev Cx Czero p) (pev Cx Czero r).
Proof. apply (pv_ext Cx Czero). intros k Hk. unfold pev. rewrite pc_mkp by exact Hk. rewrite !pc_sub, !pc_mkp by lia. reflexivity. Qed.
Lemma pod_sub n (p r : cpv (2 * n)) : pod Cx Czero (cpsub p r) = cpsub (pod Cx Czero p) (pod Cx Czero r).
Proof. apply (pv_ext Cx Czero). intros k Hk. unfold pod. rewrite pc_mkp by exact Hk. rewrite !pc_sub, !pc_mkp by lia. reflexivity. Qed.
Lemma pair_nrm h (p : cpv (2 ^ S h)) : (S h <= 10)%nat ->
  nrm (2 ^ S h) (ev p) * nrm (2 ^ S h) (ev p) = 2 * (nrm (2 ^ h) (@ev h (pev Cx Czero p)) * nrm (2 ^ h) (@ev h (pev Cx Czero p)) + nrm (2 ^ h) (@ev h (pod Cx Czero p)) * nrm (2 ^ h) (@ev h (pod Cx Czero p))).
Proof.
  intros Hh. rewrite !nrm_sq. replace (2 ^ S h)%nat with (2 ^ h * (2 * 1))%nat by (simpl; lia). rewrite Rsigma_blocks, <- Rsigma_add, <- Rsigma_mul. apply Rsigma_ext. intros i Hi. cbn [Rsigma].
  replace (i * (2 * 1) + 0)%nat with (2 * i)%nat by lia. replace (i * (2 * 1) + 1 + 0)%nat with (2 * i + 1)%nat by lia.
  assert (E := ev_even h p i). assert (O := ev_odd h p i). assert (Z := sq_pt (S h) (2 * i)).
  etransitivity; [apply (f_equal (fun z => 0 + z)), f_equal2; [apply (f_equal mod2 E)|apply (f_equal mod2 O)]|]. clear E O.
  revert Z. generalize (pt (S h) (2 * i)) (@ev h (pev Cx Czero p) i) (@ev h (pod Cx Czero p) i). intros [a b] [c e] [u v] Z. unfold P_fft.sq in Z. cbn [fst snd] in Z. unfold mod2. cx.
  transitivity (2 * (c * c + e * e + (a * a + b * b) * (u * u + v * v))); [ring|]. rewrite Z. ring.
Qed.
Lemma pair_le h (p : cpv (2 ^ S h)) M : (S h <= 10)%nat -> nrm (2 ^ S h) (ev p) <= M -> nrm (2 ^ h) (@ev h (pev Cx Czero p)) <= M /\ nrm (2 ^ h) (@ev h (pod Cx Czero p)) <= M.
Proof.
  intros Hh H. assert (E := pair_nrm h p Hh). assert (P := nrm_pos (2 ^ S h) (ev p)). assert (Q1 := Rle_0_sqr (nrm (2 ^ h) (@ev h (pev Cx Czero p)))). assert (Q2 := Rle_0_sqr (nrm (2 ^ h) (@ev h (pod Cx Czero p)))). unfold Rsqr in *.
  assert (nrm (2 ^ S h) (ev p) * nrm (2 ^ S h) (ev p) <= M * M) by (apply Rmult_le_compat; assumption).
  split; (apply sq_le; [lra|]; lra).
Qed.

(** constants of the induction *)
Definition Wh (h : nat) : R := 2 ^ h * (4940 + 15 * INR h).
Definition kh (h : nat) : R := 1 + INR h / 200.
Lemma hh h : (S h <= 9)%nat -> 0 <= INR h <= 8. Proof. intros H. split; [apply pos_INR|]. replace 8 with (INR 8) by (simpl; lra). apply le_INR. lia. Qed.
Lemma Wh_bound h : (h <= 8)%nat -> 0 <= Wh h <= 1300000.
Proof.
  intros H. unfold Wh. assert (P : 2 ^ h <= 2 ^ 8) by (apply Rle_pow; [lra|lia]). replace (2 ^ 8) with 256 in P by (simpl; lra). assert (P0 : 1 <= 2 ^ h) by (apply pow_R1_Rle; lra). assert (I := hh h ltac:(lia)).
  split; [apply Rmult_le_pos; lra|]. apply Rle_trans with (256 * (4940 + 15 * 8)); [apply Rmult_le_compat; lra|lra].
Qed.
Lemma Wh_9 : Wh 9 <= 2599000. Proof. unfold Wh. simpl. lra. Qed.
Lemma Wh_pos h : 0 <= Wh h. Proof. unfold Wh. assert (P0 : 1 <= 2 ^ h) by (apply pow_R1_Rle; lra). assert (I := pos_INR h). apply Rmult_le_pos; lra. Qed.
Lemma two_sq x y X Y E k c al : 0 <= x -> 0 <= y -> 0 <= E -> 0 <= k -> 0 <= c -> 0 <= X -> 0 <= Y -> 0 <= al -> 2 * (x * x + y * y) <= al * al -> X <= E + k * (x + c * y) -> Y <= E + k * y ->
  2 * (X * X + Y * Y) <= (2 * E + k * (1 + c) * al) * (2 * E + k * (1 + c) * al).
Proof.
  intros Hx Hy HE Hk Hc HX HY Ha H1 H2 H3. 
  assert (A1 : X * X <= (E + k * (x + c * y)) * (E + k * (x + c * y))) by (apply Rmult_le_compat; assumption).
  assert (A2 : Y * Y <= (E + k * y) * (E + k * y)) by (apply Rmult_le_compat; assumption).
  assert (B1 : x + y <= al) by (apply sq_le; [exact Ha|]; pose proof (Rle_0_sqr (x - y)) as Q; unfold Rsqr in Q; lra).
  assert (B2 : c * y <= c * al) by (apply Rmult_le_compat_l; lra).
  assert (Ek : 0 <= E * k) by (apply Rmult_le_pos; assumption).
  assert (B3 : E * k * (x + y + c * y) <= E * k * ((1 + c) * al)) by (apply Rmult_le_compat_l; lra).
  assert (cc : 0 <= c * c) by (apply Rmult_le_pos; assumption). assert (kk : 0 <= k * k) by (apply Rmult_le_pos; assumption).
  assert (C1 : 2 * ((x + c * y) * (x + c * y) + y * y) <= (1 + c) * (1 + c) * (al * al)).
  { assert (D1 : c * (2 * (x * y)) <= c * (x * x + y * y)) by (apply Rmult_le_compat_l; [exact Hc|]; pose proof (Rle_0_sqr (x - y)) as Q; unfold Rsqr in Q; lra).
    assert (D2 : (1 + c + c * c) * (2 * (x * x + y * y)) <= (1 + c + c * c) * (al * al)) by (apply Rmult_le_compat_l; lra).
    assert (D3 : 0 <= c * c * (x * x)) by (apply Rmult_le_pos; [exact cc|apply Rle_0_sqr]). assert (D4 : 0 <= c * (al * al)) by (apply Rmult_le_pos; [exact Hc|apply Rle_0_sqr]). assert (D5 : 0 <= x * x) by apply Rle_0_sqr. assert (D6 : 0 <= y * y) by apply Rle_0_sqr. lra. }
  assert (C2 : k * k * (2 * ((x + c * y) * (x + c * y) + y * y)) <= k * k * ((1 + c) * (1 + c) * (al * al))) by (apply Rmult_le_compat_l; assumption).
  lra.
Qed.

Section Sub.
Variable F : fops.
Variable fin : D F -> Prop.
Variable val : D F -> R.
Hypothesis A : accurate F fin val.
Notation C := (D F * D F)%type.
Notation d := (c0 F).
Notation cv := (cv F val).
Notation X := (X F val).
Notation apx := (apx F fin val).
Notation vfin := (vfin F fin).
Notation cfin := (cfin F fin).
Notation int_apx := (int_apx F fin val).
Notation near := (near F fin val).
Variable ztab : list C.
Hypothesis HZ : table_near F fin val ztab.
Variable fuel : nat.
Variable smin : D F.
Variable g : rng_t.
Variable T : list C.
Notation run h lvl t0 t1 off pos := (ff_sampling F ztab fuel h lvl t0 t1 T off smin g pos).
Notation cl := (cl F fin val ztab fuel smin g T).
(** what is used of the integer sampler *)
Hypothesis SZ : forall mu s pos, fin mu -> fin s -> 127 / 100 <= val s <= 179 / 100 -> Rabs (val mu) <= 2147480000 ->
  samplerz F fuel mu s smin g pos <> UB /\ forall v pos', samplerz F fuel mu s smin g pos = Ok (v, pos') -> Rabs (IZR v - val mu) <= 19.

Lemma int1 (z : Z) : (-2147483648 <= z < 2147483648)%Z -> int_apx 0 [cof F (fofz F z)] (ofl Z 0%Z 1 [z]).
Proof.
  intros H. destruct (single_apx F fin val A z H) as [H1 H2]. destruct (xh_bound 0 ltac:(lia)) as [X0 _].
  split; [eapply apx_weak; [exact H1|cbn [INR]; lra]|cbn [pow]; rewrite Rmult_1_l; exact H2].
Qed.
Lemma base_run lvl off dv (x : C) M : inr (2 ^ 1) dv -> dv 1%nat = dv 0%nat -> dv 0%nat <= 16823 -> rd T off = Ok x -> cfin x -> 127 / 100 <= val (fst x) <= 179 / 100 -> M <= 1000000000 ->
  cl 0 lvl off dv (Wh 0) (kh 0) M.
Proof.
  intros Hd H01 Hd0 Hx [Fx _] Bx HM p q t0 t1 al pos Hp [L0 F0] [L1 F1] E0 E1 Hal Ha1 HMp. change (2 ^ 0)%nat with 1%nat in *.
  destruct t0 as [|a [|]]; try discriminate L0. destruct t1 as [|b [|]]; try discriminate L1. cbn [ff_sampling]. rewrite Hx. cbn [bind rd nth_error].
  assert (Fa := F0 0%nat ltac:(lia)). assert (Fb := F1 0%nat ltac:(lia)). cbn [nth] in Fa, Fb. destruct Fa as [Fa _]. destruct Fb as [Fb _].
  specialize (E0 0%nat ltac:(lia)). specialize (E1 0%nat ltac:(lia)). unfold P_err.X in E0, E1. cbn [nth] in E0, E1. rewrite ev0 in E0, E1. unfold pev in E0. unfold pod in E1. rewrite pc_mkp in E0, E1 by (simpl; lia). simpl (2 * 0)%nat in E0, E1. simpl (0 + 1)%nat in E1.
  assert (Va : val (fst a) = fst (cc q 0)) by exact (f_equal fst E0). assert (Vb : val (fst b) = fst (cc q 1)) by exact (f_equal fst E1).
  assert (Nq : nrm (2 ^ 1) (ev q) <= M + 34000).
  { eapply Rle_trans; [apply (nrm_le_add _ _ (ev p))|]. apply Rplus_le_compat; [exact HMp|]. eapply Rle_trans; [apply (nrm_wn _ dv _ Hd)|]. lra. }
  assert (Nc : forall k, (k < 2)%nat -> Rabs (fst (cc q k)) <= M + 34000).
  { intros k Hk. eapply Rle_trans; [apply Cm_fst|]. eapply Rle_trans; [apply (nrm_comp (2 ^ 1) (cc q) k); simpl; lia|]. eapply Rle_trans; [|exact Nq]. rewrite (nrm_ev 1 q). assert (S1 := s2_1 1). assert (P := nrm_pos (2 ^ 1) (cc q)).
    replace (nrm (2 ^ 1) (cc q)) with (1 * nrm (2 ^ 1) (cc q)) at 1 by ring. apply Rmult_le_compat_r; assumption. }
  destruct (SZ (fst a) (fst x) pos Fa Fx Bx) as [U0 O0]; [rewrite Va; assert (G := Nc 0%nat ltac:(lia)); lra|].
  destruct (samplerz F fuel (fst a) (fst x) smin g pos) as [[u p1]| |] eqn:S0; [|contradiction U0; reflexivity|cbn [bind]; split; [discriminate|intros ? ? ? H; discriminate H]]. cbn [bind]. specialize (O0 u p1 eq_refl).
  destruct (SZ (fst b) (fst x) p1 Fb Fx Bx) as [U1 O1]; [rewrite Vb; assert (G := Nc 1%nat ltac:(lia)); lra|].
  destruct (samplerz F fuel (fst b) (fst x) smin g p1) as [[v p2]| |] eqn:S1; [|contradiction U1; reflexivity|cbn [bind]; split; [discriminate|intros ? ? ? H; discriminate H]]. cbn [bind]. specialize (O1 v p2 eq_refl).
  split; [discriminate|]. intros z0 z1 pos' H. exists (ofl Z 0%Z 1 [u]), (ofl Z 0%Z 1 [v]).
  assert (X0 := f_equal (fun r => match r with Ok (a, _, _) => a | _ => [] end) H). assert (X1 := f_equal (fun r => match r with Ok (_, a, _) => a | _ => [] end) H). cbv beta iota in X0, X1. rewrite <- X0, <- X1. clear X0 X1 H.
  split; [apply int1, (samplerz_i32 _ _ _ _ _ _ _ _ _ S0)|]. split; [apply int1, (samplerz_i32 _ _ _ _ _ _ _ _ _ S1)|].
  (* the norm *)
  assert (WN : forall y, wn (2 ^ 1) dv y = sqrt (dv 0%nat) * nrm (2 ^ 1) y).
  { intros y. unfold wn, nrm. rewrite <- rn_scal by apply sqrt_pos. unfold rn. f_equal. apply Rsigma_ext. intros i Hi. assert (i = 0 \/ i = 1)%nat as [->| ->] by (simpl in Hi; lia); [reflexivity|rewrite H01; reflexivity]. }
  set (r := pint (emb (ofl Z 0%Z 1 [u])) (emb (ofl Z 0%Z 1 [v])) : cpv (2 ^ 1)).
  assert (R0 : cc r 0 = Cz u) by (unfold r, pint; rewrite pc_mkp by (simpl; lia); cbn [Nat.even]; rewrite emb_c by (simpl; lia); reflexivity).
  assert (R1 : cc r 1 = Cz v) by (unfold r, pint; rewrite pc_mkp by (simpl; lia); cbn [Nat.even]; rewrite emb_c by (simpl; lia); reflexivity).
  rewrite WN in Hal |- *. rewrite (nrm_ext _ _ (ev (cpsub q p))) in Hal by (intros; symmetry; apply ev_sub). rewrite (nrm_ext _ _ (@ev 1 (cpsub p r))) by (intros; symmetry; apply (@ev_sub 1)).
  rewrite (nrm_ev 1 (cpsub q p)) in Hal. rewrite (nrm_ev 1 (cpsub p r)).
  assert (PT : forall k, (k < 2 ^ 1)%nat -> Cm (cc (cpsub p r) k) <= 1 * Cm (cc (cpsub q p) k) + 19).
  { assert (G : forall k (z : Z), (k < 2 ^ 1)%nat -> cc r k = Cz z -> Rabs (IZR z - fst (cc q k)) <= 19 -> Cm (cc (cpsub p r) k) <= 1 * Cm (cc (cpsub q p) k) + 19).
    { intros k z Hk Er Hz. rewrite !pc_sub by exact Hk. rewrite Er. assert (Rp := Hp k Hk).
      replace (Csub (cc p k) (Cz z)) with ((fst (cc p k) - IZR z, 0) : Cx) by (symmetry; unfold Csub, Cz; cbn [fst snd]; apply f_equal2; [reflexivity|rewrite Rp; lra]). rewrite Cm_re.
      assert (G := Cm_fst (Csub (cc q k) (cc p k))). replace (fst (Csub (cc q k) (cc p k))) with (fst (cc q k) - fst (cc p k)) in G by (cx; reflexivity). apply Rabs_le_inv in G. apply Rabs_le_inv in Hz. apply Rabs_le. lra. }
    intros k Hk. assert (k = 0 \/ k = 1)%nat as [->| ->] by (simpl in Hk; lia); [apply (G _ u Hk R0); rewrite <- Va; exact O0|apply (G _ v Hk R1); rewrite <- Vb; exact O1]. }
  assert (NB := nrm_bound (2 ^ 1) _ _ 1 19 ltac:(lra) ltac:(lra) PT). replace (INR (2 ^ 1)) with 2 in NB by (simpl; ring).
  assert (S2 : s2 1 = sqrt 2) by (unfold s2; simpl; ring). rewrite S2 in *. assert (Q2 := sqrt2_sq). assert (Q0 := sqrt2_pos). assert (QD := sqrt_pos (dv 0%nat)).
  assert (QU : sqrt (dv 0%nat) <= 130) by (apply Rle_trans with (sqrt (130 * 130)); [apply sqrt_le_1_alt; lra|rewrite sqrt_square; lra]).
  apply Rle_trans with (sqrt (dv 0%nat) * (sqrt 2 * (1 * nrm (2 ^ 1) (cc (cpsub q p)) + 19 * sqrt 2))); [apply Rmult_le_compat_l; [exact QD|]; apply Rmult_le_compat_l; [lra|exact NB]|].
  replace (sqrt (dv 0%nat) * (sqrt 2 * (1 * nrm (2 ^ 1) (cc (cpsub q p)) + 19 * sqrt 2))) with (sqrt (dv 0%nat) * (sqrt 2 * nrm (2 ^ 1) (cc (cpsub q p))) + sqrt (dv 0%nat) * (19 * (sqrt 2 * sqrt 2))) by ring. rewrite Q2.
  unfold Wh, kh. simpl (INR 0). simpl pow. lra.
Qed.

Notation lv := (P_tree.leaves RF).
Lemma sub_safe lg : falcon_lg lg -> forall h lvl off dv t M, (S h <= 10)%nat -> inr (2 ^ S h) dv -> (forall i, (i < 2 ^ S h)%nat -> dv (2 ^ S h - 1 - i)%nat = dv i) -> (off + h * 2 ^ (lvl + h) + 2 ^ h <= length T)%nat ->
  near PP h dv t -> stored F (2 ^ (lvl + h)) h T off (ntree F (sigma_value F lg) t) -> Forall (fun x : Cx => 8977 <= fst x <= 16823) (lv (sub h (rv (2 ^ S h) dv))) ->
  M + INR h * 1000000 <= 300000000 -> cl h lvl off dv (Wh h) (kh h) M.
Proof.
  intros Hlg. induction h as [|h IH]; intros lvl off dv t M Hh Hd Hs LT Hn St Hl HM.
  - destruct t as [x|]; [|contradiction]. cbn [P_ftree.near] in Hn. destruct Hn as [Fx Ex]. cbn [ntree stored sub P_tree.leaves] in *. rewrite rv_nth in Hl by (simpl; lia). apply Forall_inv in Hl. unfold Cof in Hl. cbn [fst] in Hl.
    destruct (leaf_apx F fin val A lg x (dv 0%nat) Hlg Fx Hl Ex) as (G1 & G2 & G3 & G4). simpl (INR 0) in HM.
    apply (base_run lvl off dv (nleaf F (sigma_value F lg) x)); [exact Hd| |lra| |exact G1|exact G4|lra].
    + rewrite <- (Hs 0%nat) by (simpl; lia). reflexivity.
    + rewrite (rd_Ok T off d) by (simpl in LT; lia). f_equal. exact St.
  - destruct t as [|l a b]; [contradiction|]. cbn [P_ftree.near] in Hn. destruct Hn as [Fl [El [Na Nb]]]. assert (E2 : (2 ^ S (S h) = 2 * 2 ^ S h)%nat) by reflexivity. assert (E3 : (2 ^ S h = 2 * 2 ^ h)%nat) by reflexivity.
    assert (Hd' : inr (2 * 2 ^ S h) dv) by exact Hd. assert (Ha := inr_am _ _ Hd'). assert (Hb := inr_hm _ _ Hd').
    assert (Hdp : forall i, (i < 2 ^ S (S h))%nat -> 0 < dv i) by (intros i Hi; specialize (Hd i Hi); lra).
    destruct (P_def.sub_node (fun _ => 0%Z) (fun _ => conj (Z.le_refl 0) eq_refl) h dv Hh Hdp Hs) as [lx [pl [Es [Hlx [Sam Shm]]]]].
    assert (Es' := sub_node' h dv Hh Hdp). rewrite Es in Es'. injection Es' as Elx. assert (Llx : length lx = (2 ^ S h)%nat) by (rewrite Elx; apply tab_length). destruct (Hlx Llx) as [Eft [Hpl _]]. clear Hlx.
    assert (Epl : forall i, (i < 2 ^ S h)%nat -> ev pl i = lex h dv i). { intros i Hi. rewrite <- (nth_ft (S h) pl i Hi), <- Eft, Elx. apply sub_l10; [exact Hh|intros; apply Hdp; lia|exact Hi]. }
    rewrite Es in Hl. cbn [ntree stored P_tree.leaves] in *. apply Forall_app in Hl. destruct Hl as [Hla Hlb]. destruct St as [_ [Sl [Sa Sb]]].
    assert (Ew : (2 ^ (lvl + S h) = 2 ^ (S lvl + h))%nat) by (f_equal; lia). assert (Ew2 : (2 ^ S h <= 2 ^ (lvl + S h))%nat) by (apply Nat.pow_le_mono_r; lia). assert (Ew3 : (2 ^ lvl * 2 ^ S h = 2 ^ (lvl + S h))%nat) by (symmetry; apply Nat.pow_add_r).
    assert (Rl : rds T off (2 ^ S h) = Ok l).
    { rewrite rds_ok by (simpl Nat.mul in LT; lia). f_equal. apply (@list_ext C d); [rewrite slice_length by (simpl Nat.mul in LT; lia); symmetry; apply Fl|]. intros i Hi. rewrite slice_length in Hi by (simpl Nat.mul in LT; lia). rewrite nth_slice by exact Hi. apply Sl, Hi. }
    assert (I8 := hh h ltac:(lia)). assert (WB := Wh_bound h ltac:(lia)). rewrite S_INR in HM.
    assert (CR : forall M', M' <= M + 1000000 -> cl h (S lvl) (off + 2 ^ lvl * 2 ^ S h + 2 ^ h) (hm2 dv) (Wh h) (kh h) M').
    { intros M' HM'. apply (IH (S lvl) _ (hm2 dv) b); try assumption; [lia| | |lra].
      - rewrite <- Ew, Ew3. simpl Nat.mul in LT. lia.
      - rewrite Ew3, <- Ew. exact Sb. }
    assert (CL : forall M', M' <= M + 1000000 -> cl h (S lvl) (off + 2 ^ lvl * 2 ^ S h) (am2 dv) (Wh h) (kh h) M').
    { intros M' HM'. apply (IH (S lvl) _ (am2 dv) a); try assumption; [lia| | |lra].
      - rewrite <- Ew, Ew3. simpl Nat.mul in LT. lia.
      - rewrite Ew3, <- Ew. exact Sa. }
    assert (Kl : forall i, (i < 2 ^ S h)%nat -> sqrt (am2 dv i) * Cm (Csub (X l i) (ev pl i)) <= 22 / 10000 * sqrt (hm2 dv i)).
    { intros i Hi. specialize (El i Hi). rewrite Epl by exact Hi. assert (B1 := Ha i Hi). assert (B2 := Hb i Hi). destruct (sqrt_in _ B1) as [R1 _]. destruct (sqrt_in _ B2) as [R2 _].
      assert (HB : hm2 dv i <= am2 dv i) by (apply (hm2_le (2 ^ S h)); [lia|intros j Hj; specialize (Hd' j Hj); lra|exact Hi]).
      assert (HS : sqrt (hm2 dv i) <= sqrt (am2 dv i)) by (apply sqrt_le_1_alt; exact HB). assert (Q1 := sqrt_sqrt (am2 dv i) ltac:(lra)). assert (Q2 := sqrt_sqrt (hm2 dv i) ltac:(lra)).
      eapply Rle_trans; [apply Rmult_le_compat_l; [lra|exact El]|]. rewrite <- Q1 at 2. rewrite <- Q2 at 1. unfold PP. set (u := sqrt (am2 dv i)) in *. set (w := sqrt (hm2 dv i)) in *.
      replace (u * (2 * (11 / 10000) * (w * w / (u * u)))) with (22 / 10000 * w * (w / u)) by (field; lra). rewrite <- (Rmult_1_r (22 / 10000 * w)) at 2. apply Rmult_le_compat_l; [lra|]. apply Rmult_le_reg_r with u; [lra|]. unfold Rdiv. rewrite Rmult_assoc, Rinv_l by lra. lra. }
    assert (Lx : forall i, (i < 2 ^ S h)%nat -> Cm (ev pl i) <= 1) by (intros i Hi; rewrite Epl by exact Hi; apply lex_1; assumption).
    assert (Ll : forall i, (i < 2 ^ S h)%nat -> Cm (X l i) <= 101 / 100).
    { intros i Hi. specialize (El i Hi). specialize (Lx i Hi). rewrite Epl in Lx by exact Hi. assert (B1 := Ha i Hi). assert (B2 := Hb i Hi).
      assert (HB : hm2 dv i <= am2 dv i) by (apply (hm2_le (2 ^ S h)); [lia|intros j Hj; specialize (Hd' j Hj); lra|exact Hi]).
      assert (hm2 dv i / am2 dv i <= 1) by (apply Rmult_le_reg_r with (am2 dv i); [lra|]; unfold Rdiv; rewrite Rmult_assoc, Rinv_l by lra; lra). unfold PP in El. assert (G := Cm_le_add (X l i) (lex h dv i)). lra. }
    intros p q t0 t1 al pos Hp V0 V1 X0 X1 Hal Ha1 HMp. assert (al0 : 0 <= al) by (eapply Rle_trans; [apply wn_pos|exact Hal]).
    assert (Nq : nrm (2 ^ S (S h)) (ev q) <= 400000000).
    { eapply Rle_trans; [apply (nrm_le_add _ _ (ev p))|]. apply Rle_trans with (M + 34000); [|lra]. apply Rplus_le_compat; [exact HMp|]. eapply Rle_trans; [apply (nrm_wn _ dv _ Hd)|]. lra. }
    destruct (pair_le (S h) p M Hh HMp) as [P0 P1]. destruct (pair_le (S h) q _ Hh Nq) as [Q0 Q1].
    set (p0 := pev Cx Czero p : cpv (2 ^ S h)). set (p1 := pod Cx Czero p : cpv (2 ^ S h)). set (q0 := pev Cx Czero q : cpv (2 ^ S h)). set (q1 := pod Cx Czero q : cpv (2 ^ S h)).
    set (x := wn (2 ^ S h) (am2 dv) (fun i => Cadd (Csub (ev q0 i) (ev p0 i)) (Cmul (Csub (ev q1 i) (ev p1 i)) (ev pl i)))). set (y := wn (2 ^ S h) (hm2 dv) (fun i => Csub (ev q1 i) (ev p1 i))).
    assert (NF : forall (p' q' : cpv (2 ^ S (S h))), wn (2 ^ S (S h)) dv (fun i => Csub (ev q' i) (ev p' i)) * wn (2 ^ S (S h)) dv (fun i => Csub (ev q' i) (ev p' i)) =
      2 * (let x := wn (2 ^ S h) (am2 dv) (fun i => Cadd (Csub (@ev (S h) (pev Cx Czero q') i) (@ev (S h) (pev Cx Czero p') i)) (Cmul (Csub (@ev (S h) (pod Cx Czero q') i) (@ev (S h) (pod Cx Czero p') i)) (ev pl i))) in
           let y := wn (2 ^ S h) (hm2 dv) (fun i => Csub (@ev (S h) (pod Cx Czero q') i) (@ev (S h) (pod Cx Czero p') i)) in x * x + y * y)).
    { intros p' q'. assert (NF := node_form h dv (cpsub q' p') Hd). rewrite (wn_ext _ dv _ (ev (cpsub q' p'))) by (intros; symmetry; apply ev_sub). etransitivity; [exact NF|]. cbv zeta. f_equal.
      assert (Ee : forall i, @ev (S h) (pev Cx Czero (cpsub q' p')) i = Csub (@ev (S h) (pev Cx Czero q') i) (@ev (S h) (pev Cx Czero p') i)) by (intros i; rewrite <- ev_sub; f_equal; apply (pev_sub (2 ^ S h))).
      assert (Eo : forall i, @ev (S h) (pod Cx Czero (cpsub q' p')) i = Csub (@ev (S h) (pod Cx Czero q') i) (@ev (S h) (pod Cx Czero p') i)) by (intros i; rewrite <- ev_sub; f_equal; apply (pod_sub (2 ^ S h))).
      f_equal; f_equal; apply wn_ext; intros i Hi; rewrite ?Ee, ?Eo, ?Epl by exact Hi; reflexivity. }
    assert (XY := NF p q). cbv zeta in XY. fold p0 p1 q0 q1 in XY. fold x y in XY.
    assert (x0 : 0 <= x) by apply wn_pos. assert (y0 : 0 <= y) by apply wn_pos.
    assert (XY' : 2 * (x * x + y * y) <= al * al) by (rewrite <- XY; apply Rmult_le_compat; try apply wn_pos; exact Hal). clear XY.
    assert (xx : 0 <= x * x) by apply Rle_0_sqr. assert (yy : 0 <= y * y) by apply Rle_0_sqr.
    assert (xb : x <= 7072 / 10000 * al) by (apply sq_le; [lra|]; lra). assert (yb : y <= 7072 / 10000 * al) by (apply sq_le; [lra|]; lra).
    set (k := kh h). assert (kB : 1 <= k <= 104 / 100) by (unfold k, kh; lra). set (W := Wh h) in *. set (e := 101 / 100 / 18).
    assert (ky : 0 <= k * (y + e) <= 104 / 100 * (y + e)) by (unfold e; split; [apply Rmult_le_pos; lra|apply Rmult_le_compat_r; lra]).
    destruct (node_run F fin val A ztab HZ fuel smin g T h lvl off (am2 dv) (hm2 dv) l pl (22 / 10000) (101 / 100) (34 / 100) W k M M) with (p0 := p0) (p1 := p1) (q0 := q0) (q1 := q1) (t0 := t0) (t1 := t1) (x := x) (y := y) (pos := pos) as [UB' OK'];
      try assumption; try lra; try (apply Rle_refl); try lia.
    + intros i Hi. specialize (Lx i Hi). destruct (sqrt_in _ (Hb i Hi)). lra.
    + apply CR. lra.
    + apply CL. lra.
    + apply real_herm, real_pev, Hp.
    + apply real_herm, real_pod, Hp.
    + fold e. unfold e in *. lra.
    + fold e. unfold e in *. lra.
    + split; [exact UB'|]. intros z0 z1 pos' H. destruct (OK' z0 z1 pos' H) as (a0 & a1 & I0 & I1 & WY & WX). fold e in WY, WX. exists a0, a1. split; [exact I0|]. split; [exact I1|].
      set (XX := wn (2 ^ S h) (am2 dv) _) in WX. set (YY := wn (2 ^ S h) (hm2 dv) _) in WY.
      assert (R : wn (2 ^ S (S h)) dv (fun i => Csub (ev p i) (@ev (S (S h)) (pint (emb a0) (emb a1)) i)) * wn (2 ^ S (S h)) dv (fun i => Csub (ev p i) (@ev (S (S h)) (pint (emb a0) (emb a1)) i)) = 2 * (XX * XX + YY * YY)).
      { etransitivity; [apply (NF (pint (emb a0) (emb a1)) p)|]. cbv zeta. assert (Pe := pev_pint (2 ^ S h) (emb a0) (emb a1)). assert (Po := pod_pint (2 ^ S h) (emb a0) (emb a1)).
        unfold XX, YY. apply (f_equal (Rmult 2)), f_equal2; apply f_equal2; apply wn_ext; intros i Hi.
        1, 2: apply f_equal2; [apply f_equal2; [reflexivity|exact (f_equal (fun z => @ev (S h) z i) Pe)]|apply f_equal2; [apply f_equal2; [reflexivity|exact (f_equal (fun z => @ev (S h) z i) Po)]|reflexivity]].
        1, 2: apply f_equal2; [reflexivity|exact (f_equal (fun z => @ev (S h) z i) Po)]. }
      set (kk := k * (22 / 10000)). set (E := W + k * e + kk * (W + k * e)). set (c := 22 / 10000 * (1 + k)). assert (ke : 0 <= k * e <= 6 / 100) by (unfold e; lra). assert (kkB : 0 <= kk <= 23 / 10000) by (unfold kk; lra).
      assert (PE : 0 <= kk * (W + k * e) <= 23 / 10000 * (W + k * e)) by (split; [apply Rmult_le_pos; lra|apply Rmult_le_compat_r; lra]).
      apply sq_le.
      * unfold k in *. assert (G := Wh_pos (S h)). assert (0 <= kh (S h) * al) by (apply Rmult_le_pos; [unfold kh; pose proof (pos_INR (S h)); lra|exact al0]). lra.
      * rewrite R. eapply Rle_trans; [apply (two_sq x y XX YY E k c al); try assumption; try apply wn_pos; try lra|].
        -- unfold E. lra.
        -- unfold c. lra.
        -- eapply Rle_trans; [exact WX|]. unfold E, c, kk. right. ring.
        -- eapply Rle_trans; [exact WY|]. unfold E. lra.
        -- assert (2 * E <= Wh (S h)).
           { unfold E. unfold Wh. change (2 ^ S h) with (2 * 2 ^ h). rewrite S_INR. assert (P1' : 1 <= 2 ^ h) by (apply pow_R1_Rle; lra). unfold W, Wh in *. set (I := INR h) in *.
             assert (2 ^ h * (23 / 10000 * (4940 + 15 * I)) <= 2 ^ h * 13) by (apply Rmult_le_compat_l; lra). lra. }
           assert (k * (1 + c) <= kh (S h)). { unfold kh. rewrite S_INR. assert (c0' : 0 <= c <= 45 / 10000) by (unfold c; lra). assert (k * c <= 104 / 100 * (45 / 10000)) by (apply Rmult_le_compat; lra). unfold k, kh in *. lra. }
           assert (0 <= k * (1 + c)) by (apply Rmult_le_pos; [lra|unfold c; lra]). assert (k * (1 + c) * al <= kh (S h) * al) by (apply Rmult_le_compat_r; assumption). assert (0 <= k * (1 + c) * al) by (apply Rmult_le_pos; assumption). assert (0 <= E) by (unfold E; lra).
           apply Rmult_le_compat; lra.
Qed.
End Sub.
