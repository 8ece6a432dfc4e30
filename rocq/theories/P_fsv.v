(** P_fsv.v -- signing in rounded arithmetic: numeric bounds and statements on lists. *)
From Verif Require Import Base Ring Poly Spec SpecR SpecF M_ff M_ntt M_codec P_codec P_keys M_sig P_comp P_sigx P_decomp M_verify M_float M_exact P_exact M_samp M_fft M_ntru P_ntru M_tree P_tree P_brv P_cplx P_fft P_treex P_gs P_sign P_signb P_signx P_signv P_l2 P_err P_ferr P_float P_fmerge P_fnorm P_fsign P_fG.
From Verif Require P_keygen P_sig P_ntt P_nttx P_verify P_verifyx.
From Coq Require Import Lra.
Open Scope R_scope.

Lemma ve_le u D S e U C : 0 <= u <= U -> 0 <= D <= C -> 0 <= S -> 0 <= e -> ve u D S e <= ve U C S e.
Proof.
  intros Hu HD HS He. assert (W : wE u D <= wE U C) by (unfold wE; rewrite ulp_val; lra).
  assert (wE u D * (S + e) <= wE U C * (S + e)) by (apply Rmult_le_compat_r; lra). assert (D * e <= C * e) by (apply Rmult_le_compat_r; lra).
  assert ((D + wE u D) * (S + e) <= (C + wE U C) * (S + e)) by (apply Rmult_le_compat_r; lra). unfold ve. rewrite ulp_val. lra.
Qed.
Lemma EE_le kf kF Sf SF u0 D0 u1 D1 U0 C0 U1 C1 V0 V1 : 0 <= kf -> 0 <= kF -> 0 <= Sf -> 0 <= SF ->
  0 <= u0 <= U0 -> 0 <= D0 <= C0 -> 0 <= u1 <= U1 -> 0 <= D1 <= C1 -> ve U0 C0 Sf (e1 kf) <= V0 -> ve U1 C1 SF (e2 kF) <= V1 ->
  EE kf kF Sf SF u0 D0 u1 D1 <= V0 + V1 + 1 / 1000000000000000 * (C0 * Sf + V0 + (C1 * SF + V1)).
Proof.
  intros Hk HK HS Hs H0 H1 H2 H3 HV0 HV1. assert (A := ve_le u0 D0 Sf (e1 kf) U0 C0 H0 H1 HS ltac:(unfold e1; lra)). assert (B := ve_le u1 D1 SF (e2 kF) U1 C1 H2 H3 Hs ltac:(unfold e2; lra)).
  assert (P0 : 0 <= D0 * Sf <= C0 * Sf) by (split; [apply Rmult_le_pos; lra|apply Rmult_le_compat_r; lra]). assert (P1 : 0 <= D1 * SF <= C1 * SF) by (split; [apply Rmult_le_pos; lra|apply Rmult_le_compat_r; lra]).
  assert (N0 : 0 <= ve u0 D0 Sf (e1 kf)). { assert (T := tiny_pos). assert (0 <= wE u0 D0) by (unfold wE; rewrite ulp_val; lra). unfold ve. assert (0 <= ulp) by (rewrite ulp_val; lra). assert (0 <= e1 kf) by (unfold e1; lra).
    assert (0 <= wE u0 D0 * (Sf + e1 kf)) by (apply Rmult_le_pos; lra). assert (0 <= D0 * e1 kf) by (apply Rmult_le_pos; lra). assert (0 <= (D0 + wE u0 D0) * (Sf + e1 kf)) by (apply Rmult_le_pos; lra). assert (0 <= 3 * ulp * ((D0 + wE u0 D0) * (Sf + e1 kf))) by (apply Rmult_le_pos; lra). lra. }
  assert (N1 : 0 <= ve u1 D1 SF (e2 kF)). { assert (T := tiny_pos). assert (0 <= wE u1 D1) by (unfold wE; rewrite ulp_val; lra). unfold ve. assert (0 <= ulp) by (rewrite ulp_val; lra). assert (0 <= e2 kF) by (unfold e2; lra).
    assert (0 <= wE u1 D1 * (SF + e2 kF)) by (apply Rmult_le_pos; lra). assert (0 <= D1 * e2 kF) by (apply Rmult_le_pos; lra). assert (0 <= (D1 + wE u1 D1) * (SF + e2 kF)) by (apply Rmult_le_pos; lra). assert (0 <= 3 * ulp * ((D1 + wE u1 D1) * (SF + e2 kF))) by (apply Rmult_le_pos; lra). lra. }
  unfold EE. set (x := ve u0 D0 Sf (e1 kf)) in *. set (y := ve u1 D1 SF (e2 kF)) in *.
  assert (ulp * (D0 * Sf + x + (D1 * SF + y)) <= 1 / 1000000000000000 * (C0 * Sf + V0 + (C1 * SF + V1))) by (apply Rmult_le_compat; rewrite ?ulp_val; lra). lra.
Qed.
Lemma zE_pos K : 0 <= K -> 0 <= zE K. Proof. intros H. unfold zE. lra. Qed.
Lemma mT_num S e x y : mT S e <= x -> 8 * ulp / 12289 * (S * 12582912 + x) + x / 12289 + 1 / 10 ^ 20 <= y -> dT S e <= y.
Proof. intros Hx Hy. assert (T1 := tiny_1). assert (1 / 10 ^ 20 = 1 / 100000000000000000000) by (simpl; lra). unfold dT. rewrite ulp_val in *. lra. Qed.
Ltac num := assert (T0 := tiny_pos); assert (T1 := tiny_1); unfold ve, wE, zE, DD, nT, mT, K41, e1, e2; rewrite ?ulp_val; simpl pow; lra.
Lemma good_num kf kF Sf SF Ea Eb a0 a1 b0 b1 c0 c1 v0 v1 w0 w1 d0 d1 : 1 <= kf <= 131 -> 1 <= kF <= 4096 -> 0 <= Sf <= 4192 -> 0 <= SF <= 131072 -> 0 <= Ea <= 20000 -> 0 <= Eb <= 1 / 10 ->
  dT SF (e2 kF) <= a0 -> dT Sf (e1 kf) <= a1 -> a0 <= 1 -> a1 <= 1 ->
  DD SF (268400 + Ea) <= d0 -> DD Sf (268400 + Ea) <= d1 -> a0 + zE (nT SF + d0) <= b0 -> a1 + zE (nT Sf + d1) <= b1 -> nT SF + K41 <= c0 -> nT Sf + K41 <= c1 ->
  ve (a0 + zE K41) c0 Sf (e1 kf) <= v0 -> ve (a1 + zE K41) c1 SF (e2 kF) <= v1 ->
  v0 + v1 + 1 / 1000000000000000 * (c0 * Sf + v0 + (c1 * SF + v1)) <= Ea ->
  ve b0 d0 Sf (e1 kf) <= w0 -> ve b1 d1 SF (e2 kF) <= w1 ->
  w0 + w1 + 1 / 1000000000000000 * (d0 * Sf + w0 + (d1 * SF + w1)) <= Eb -> good kf kF Sf SF Ea Eb.
Proof.
  intros H1 H2 H3 H4 H5 H6 A0 A1 A0' A1' D0 D1 B0 B1 C0 C1 V0 V1 VE W0 W1 WE.
  assert (P0 := dT_pos SF (e2 kF) H4 (e2_b kF H2)). assert (P1 := dT_pos Sf (e1 kf) ltac:(lra) (e1_b kf H1)).
  assert (N0 : 0 <= nT SF) by (unfold nT; lra). assert (N1 : 0 <= nT Sf) by (unfold nT; lra).
  assert (X0 : 0 <= DD SF (268400 + Ea)) by (unfold DD; apply Rmult_le_pos; [apply Rmult_le_pos; lra|lra]). assert (X1 : 0 <= DD Sf (268400 + Ea)) by (unfold DD; apply Rmult_le_pos; [apply Rmult_le_pos; lra|lra]).
  assert (Z0 : 0 <= zE K41) by (unfold zE, K41; lra). assert (Zp : forall x y, 0 <= x <= y -> 0 <= zE x <= zE y) by (intros; unfold zE; lra).
  assert (ZA := Zp (nT SF + DD SF (268400 + Ea)) (nT SF + d0) ltac:(lra)). assert (ZB := Zp (nT Sf + DD Sf (268400 + Ea)) (nT Sf + d1) ltac:(lra)). assert (ZK : 0 <= K41) by (unfold K41; lra).
  unfold good. split; [lra|]. split; [lra|]. split; [lra|]. split; [lra|]. split.
  - eapply Rle_trans; [|exact VE]. apply (EE_le _ _ _ _ _ _ _ _ (a0 + zE K41) c0 (a1 + zE K41) c1 v0 v1); try assumption; lra.
  - eapply Rle_trans; [|exact WE]. apply (EE_le _ _ _ _ _ _ _ _ b0 d0 b1 d1 w0 w1); try assumption; lra.
Qed.
Lemma good_wide : good 131 4096 4192 131072 12500 (72 / 1000).
Proof.
  apply (good_num _ _ _ _ _ _ (56 / 10000000) (18 / 100000000) (841 / 100000000) (27 / 100000000) 2200000000000 2200000000000 375 11800 (358 / 10000) (361 / 10000) 5995000 192000); try lra.
  - apply (mT_num _ _ (67 / 1000)); num.
  - apply (mT_num _ _ (213 / 100000)); num.
  - num.
  - num.
  - num.
  - num.
  - num.
  - num.
  - num.
  - num.
  - num.
  - num.
Qed.
Lemma good_strict : good 131 1500 400 6000 2700 (1180 / 1000000).
Proof.
  apply (good_num _ _ _ _ _ _ (112 / 100000000) (948 / 10000000000) (125 / 100000000) (1034 / 10000000000) 2200000000000 2200000000000 203 2390 (53 / 100000) (64 / 100000) 265000 17700); try lra.
  - apply (mT_num _ _ (1362 / 100000)); num.
  - apply (mT_num _ _ (1159 / 1000000)); num.
  - num.
  - num.
  - num.
  - num.
  - num.
  - num.
  - num.
  - num.
  - num.
  - num.
Qed.

Lemma values_ev lg (a : list Z) : length a = (2 ^ lg)%nat -> values lg (map Cz a) = ft (emb (ofl Z 0%Z (2 ^ lg) a)).
Proof. intros La. rewrite ft_emb_values, pl_ofl by exact La. reflexivity. Qed.
Lemma values_le_ev lg (a : list Z) b : length a = (2 ^ lg)%nat -> values_le lg a b <-> forall i, (i < 2 ^ lg)%nat -> Cm (ev (emb (ofl Z 0%Z (2 ^ lg) a)) i) <= b.
Proof.
  intros La. unfold values_le. rewrite values_ev by exact La. split.
  - intros H i Hi. rewrite Forall_forall in H. specialize (H (nth i (ft (emb (ofl Z 0%Z (2 ^ lg) a))) Czero) (nth_In _ _ ltac:(rewrite ft_length; exact Hi))). rewrite nth_ft in H by exact Hi. exact H.
  - intros H. rewrite Forall_forall. intros x Hx. destruct (In_nth _ _ Czero Hx) as (i & Hi & <-). rewrite ft_length in Hi. rewrite nth_ft by exact Hi. apply H, Hi.
Qed.
Lemma values_ge_ev lg (a : list Z) b : length a = (2 ^ lg)%nat -> values_ge lg a b <-> forall i, (i < 2 ^ lg)%nat -> b <= Cm (ev (emb (ofl Z 0%Z (2 ^ lg) a)) i).
Proof.
  intros La. unfold values_ge. rewrite values_ev by exact La. split.
  - intros H i Hi. rewrite Forall_forall in H. specialize (H (nth i (ft (emb (ofl Z 0%Z (2 ^ lg) a))) Czero) (nth_In _ _ ltac:(rewrite ft_length; exact Hi))). rewrite nth_ft in H by exact Hi. exact H.
  - intros H. rewrite Forall_forall. intros x Hx. destruct (In_nth _ _ Czero Hx) as (i & Hi & <-). rewrite ft_length in Hi. rewrite nth_ft by exact Hi. apply H, Hi.
Qed.
Lemma nrm_list lg (a : list Z) K : length a = (2 ^ lg)%nat -> (0 <= K)%Z -> (sqnorm a <= K * K)%Z -> nrm (2 ^ lg) (cc (emb (ofl Z 0%Z (2 ^ lg) a))) <= IZR K.
Proof. intros La HK H. apply nrm_emb_le; [apply (IZR_le 0), HK|]. rewrite pl_ofl by exact La. rewrite <- mult_IZR. apply IZR_le, H. Qed.

Section Sign.
Variable F : fops.
Variable fin : D F -> Prop.
Variable val : D F -> R.
Hypothesis A : accurate F fin val.
Variable ztab : list (D F * D F).
Hypothesis HZ : table_near F fin val ztab.
Variable lg : nat.
Hypothesis Hlg : falcon_lg lg.
Notation N := (2 ^ lg)%nat.
Variables f g F_ G_ : list Z.
Hypotheses (Lf : length f = N) (Lg : length g = N) (LF : length F_ = N) (LG : length G_ = N).
Hypothesis HN : ntru N f g F_ G_.
Variable kF : Z.
Variables Sf SF Ea Eb : R.
Variable slack : Z.
Hypotheses (HkF : (1 <= kF <= 4096)%Z) (HSf : 0 <= Sf <= 4192) (HSF : 0 <= SF <= 131072).
Hypotheses (Nf : (sqnorm f <= 17161)%Z) (Ng : (sqnorm g <= 17161)%Z) (NF : (sqnorm F_ <= kF * kF)%Z) (NG : (sqnorm G_ <= kF * kF)%Z).
Hypotheses (Uf : values_le lg f Sf) (Ug : values_le lg g Sf) (UF : values_le lg F_ SF) (UG : values_le lg G_ SF).
Hypothesis HG : good 131 (IZR kF) Sf SF Ea Eb.
Hypothesis Hslack : 742 * Eb + 2 * (Eb * Eb) + 1 / 100 < IZR slack + 1.

Lemma falcon_10 : (lg <= 10)%nat.
Proof. destruct Hlg as [->| ->]; lia. Qed.
Lemma kF_R : 1 <= IZR kF <= 4096.
Proof. split; apply IZR_le; lia. Qed.
Lemma nrms : nrm N (cc (emb (ofl Z 0%Z N f))) <= 131 /\ nrm N (cc (emb (ofl Z 0%Z N g))) <= 131 /\ nrm N (cc (emb (ofl Z 0%Z N F_))) <= IZR kF /\ nrm N (cc (emb (ofl Z 0%Z N G_))) <= IZR kF.
Proof. repeat split; apply nrm_list; try assumption; lia. Qed.
Lemma matrix_blocks : exists B, compute_matrix_B F ztab lg f g F_ G_ = Ok B /\ blocks F fin val lg f g F_ G_ 131 (IZR kF) B.
Proof. destruct nrms as (a & b & c & e). apply matrix_B_apx; try assumption; try apply falcon_10; try apply kF_R; lra. Qed.
Variable xof : list Z -> nat -> Z.
Hypothesis Hx : forall a, byte_stream (xof a).
Lemma sign_float_vector fuel sfuel B T msg sig rng pos sig' pos' : (sig_bytes lg <= length sig)%nat ->
  compute_matrix_B F ztab lg f g F_ G_ = Ok B ->
  sign_bt F ztab fuel sfuel xof lg B T msg sig rng pos = Ok (sig', pos') ->
  let salt := map (fun i => rng (pos + i)%nat) (seq 0 40) in
  exists c z0 z1 s1 s2 body, hashed (xof (salt ++ msg)) lg c /\ length z0 = N /\ length z1 = N /\
    s1 = psub N (psub N c (negacyclic N z0 g)) (negacyclic N z1 G_) /\ s2 = padd N (negacyclic N z0 f) (negacyclic N z1 F_) /\
    (sqnorm s1 + sqnorm s2 <= beta2 lg + slack)%Z /\
    length body = (sig_bytes lg - 41)%nat /\ bytes body /\ (tot s2 < body_len lg)%Z /\
    bits_of body = encs s2 ++ repeat false (Z.to_nat (body_len lg - tot s2)) /\
    sig' = (48 + Z.of_nat lg :: salt)%Z ++ body ++ skipn (sig_bytes lg) sig.
Proof.
  intros Ls HB H salt. destruct matrix_blocks as (B' & EB & HBk). assert (B' = B) by congruence. subst B'.
  destruct (sign_layout _ _ _ _ _ _ _ _ _ _ _ _ _ _ Hlg Ls H) as (c & t0 & t1 & s2 & body & H1 & H2 & Ac & L2 & Lb & Bb & Tt & Kb & E). fold salt in H1, E.
  assert (Hc := P_verifyx.hash_hashed sfuel xof lg salt msg _ c (Hx _) (repeat_length _ _) H1).
  destruct (P_verifyx.hashed_facts _ _ _ Hc) as [Lc Cc].
  assert (Hci : forall i, (i < N)%nat -> (0 <= nth i c 0 < 12289)%Z). { intros i Hi. rewrite Forall_forall in Cc. apply (Cc (nth i c 0%Z)). apply nth_In. lia. }
  assert (Hb : (0 <= beta2 lg <= 68700 * Z.of_nat N)%Z) by (destruct Hlg as [->| ->]; vm_compute; split; congruence).
  destruct nrms as (na & nb & nc & ne).
  destruct (accepted_float F fin val A ztab HZ lg falcon_10 f g F_ G_ Lf Lg LF LG 131 (IZR kF) ltac:(lra) kF_R Sf SF HSf HSF
    (proj1 (values_le_ev lg f Sf Lf) Uf) (proj1 (values_le_ev lg g Sf Lg) Ug) (proj1 (values_le_ev lg F_ SF LF) UF) (proj1 (values_le_ev lg G_ SF LG) UG) B HBk HN Ea Eb _ _ c _ (beta2 lg) _ _ _ _ _ HG Lc Hci Hb H2 Ac) as (z0 & z1 & L0 & L1 & E2 & B2).
  exists c, z0, z1, (psub N (psub N c (negacyclic N z0 g)) (negacyclic N z1 G_)), s2, body. split; [exact Hc|]. split; [exact L0|]. split; [exact L1|]. split; [reflexivity|]. split; [exact E2|].
  split; [|auto].
  assert (B3 : IZR (sqnorm (psub N (psub N c (negacyclic N z0 g)) (negacyclic N z1 G_)) + sqnorm s2) < IZR (beta2 lg + slack + 1)) by (rewrite !plus_IZR in *; lra).
  apply lt_IZR in B3. lia.
Qed.

Hypothesis Sf' : Forall smallq f.
Hypothesis Sg' : Forall smallq g.
Hypothesis HI : is_poly_invertible lg f = Ok true.
Definition signature_ok (pk msg sig sig' : list Z) (h : list Z) (salt : list Z) : Prop :=
  exists c s1 s2 body, hashed (xof (salt ++ msg)) lg c /\ length s1 = N /\ length s2 = N /\
    modq s1 = s1_residues lg c s2 h /\ (sqnorm s1 + sqnorm s2 <= beta2 lg + slack)%Z /\
    bytes body /\ (tot s2 < body_len lg)%Z /\ bits_of body = encs s2 ++ repeat false (Z.to_nat (body_len lg - tot s2)) /\
    sig' = (48 + Z.of_nat lg :: salt)%Z ++ body ++ skipn (sig_bytes lg) sig /\
    ((sqnorm s1 + sqnorm s2 <= beta2 lg)%Z -> Forall (fun v => Z.abs v <= 1023)%Z s2 -> (lg = 10%nat -> ~ In 6144%Z s1) ->
      exists fuel0, forall fuel m, (fuel0 <= fuel)%nat -> verify m fuel xof lg pk msg sig' = Ok true).
Lemma sign_float_verifies fuel sfuel B T msg sig rng pos sig' pos' h0 h pk0 pk : bytes sig -> (sig_bytes lg + 2 <= length sig)%nat -> byte_stream rng ->
  length h0 = N -> length pk0 = pkey_len lg -> compute_public_key lg f g h0 = Ok h -> encode_pkey lg h pk0 = Ok pk ->
  compute_matrix_B F ztab lg f g F_ G_ = Ok B ->
  sign_bt F ztab fuel sfuel xof lg B T msg sig rng pos = Ok (sig', pos') ->
  signature_ok pk msg sig sig' h (map (fun i => rng (pos + i)%nat) (seq 0 40)).
Proof.
  intros Bs Ls Hr Lh0 Lpk0 HK HE HB H. set (salt := map (fun i => rng (pos + i)%nat) (seq 0 40)). destruct (salt_facts rng pos Hr) as [Lsalt Bsalt]. fold salt in Lsalt, Bsalt. destruct (sig_dims lg Hlg) as (D1 & D2 & _).
  assert (Ls' : (sig_bytes lg <= length sig)%nat) by lia.
  destruct (sign_float_vector _ _ _ _ _ _ _ _ _ _ Ls' HB H) as (c & z0 & z1 & s1 & s2 & body & Hc & L0 & L1 & E1 & E2 & Bn & Lb & Bb & Tt & Kb & E). fold salt in Hc, E.
  exists c, s1, s2, body. split; [exact Hc|]. split; [rewrite E1; apply tab_length|]. assert (L2 : length s2 = N) by (rewrite E2; apply tab_length). split; [exact L2|].
  destruct (P_nttx.public_key_spec lg f g h0 Hlg Lf Lg Lh0 Sf' Sg' HI) as (h' & Eh & Lh & Ch & HP & _). assert (h' = h) by congruence. subst h'.
  split; [rewrite E1, E2; symmetry; apply (P_verifyx.sign_equation lg f g F_ G_ h z0 z1 c Hlg Lf Lg LF LG Lh HN (invertible_unit lg Hlg f Lf Sf' HI) HP)|].
  repeat (split; [assumption|]). intros Bn' S2 NI.
  set (x := skipn (sig_bytes lg) sig) in *. 
  assert (Bx : bytes x) by (unfold bytes in *; rewrite <- (firstn_skipn (sig_bytes lg) sig) in Bs; apply Forall_app in Bs; apply Bs).
  assert (Lx : (2 <= length x)%nat) by (unfold x; rewrite skipn_length; lia).
  set (e := (48 + Z.of_nat lg :: salt)%Z ++ body). assert (Ee : sig' = e ++ x) by (rewrite E; unfold e; rewrite <- app_assoc; reflexivity). rewrite Ee.
  rewrite E1 in NI, Bn'. rewrite E2 in S2, Bn'.
  refine (P_verifyx.completeness lg f g F_ G_ h0 h pk0 pk z0 z1 c salt msg e x xof Hlg Hx Lf Lg LF LG Sf' Sg' Lh0 Lpk0 HN HI HK HE Lsalt Bsalt Bx Lx Hc Bn' S2 NI _).
  exists (repeat 0%Z (sig_bytes lg - 41)). split; [apply repeat_length|]. split; [apply P_nttx.Forall_rep; unfold byte; lia|].
  set (buf := (48 + Z.of_nat lg :: salt)%Z ++ repeat 0%Z (sig_bytes lg - 41)).
  assert (Lbuf : length buf = sig_bytes lg) by (unfold buf; cbn [length app]; rewrite app_length, repeat_length, Lsalt; lia).
  rewrite E2 in L2, Tt, Kb. destruct (compress_ok lg _ buf Hlg L2 ltac:(lia)) as [K1 _].
  destruct K1 as (body' & E' & B' & L' & K & _); [assert (body_len lg <= 14 * 2 ^ Z.of_nat lg)%Z by (destruct Hlg as [->| ->]; vm_compute; congruence); lia|].
  rewrite E'. rewrite (proj2 (Z.ltb_lt _ _) Tt). specialize (K Tt). rewrite <- Kb in K. apply P_sig.bits_of_inj in K; [|assumption|assumption]. subst body'.
  unfold e. do 3 f_equal.
Qed.

(** on key bytes *)
Hypothesis Hmin : values_ge lg f (1 / 1000).
Lemma recompute_float out : length out = N -> recompute_G F ztab lg f g F_ out = Ok G_.
Proof.
  destruct nrms as (a & b & c & e). assert (K := kF_R). apply (recompute_G_apx F fin val A ztab HZ lg falcon_10); try assumption; try lra. apply values_ge_ev; assumption.
Qed.
Lemma sign_float_bytes fuel sfuel skey msg sig rng sig' b h0 h pk0 pk : bytes sig -> (sig_bytes lg + 2 <= length sig)%nat -> byte_stream rng ->
  length h0 = N -> length pk0 = pkey_len lg -> compute_public_key lg f g h0 = Ok h -> encode_pkey lg h pk0 = Ok pk ->
  decode_skey lg skey (repeat 0%Z N) (repeat 0%Z N) (repeat 0%Z N) = Ok (true, (f, g, F_)) ->
  sign F ztab fuel sfuel xof lg skey msg sig rng = Ok (b, sig') ->
  b = true /\ signature_ok pk msg sig sig' h (map rng (seq 0 40)).
Proof.
  intros Bs Ls Hr Lh0 Lpk0 HK HE HD H. unfold sign in H. rewrite HD in H. cbn [bind negb] in H.
  rewrite (recompute_float (repeat 0%Z N) (repeat_length _ _)) in H. cbn [bind] in H.
  apply bind_Ok in H. destruct H as [B [EB H]]. apply bind_Ok in H. destruct H as [T [ET H]]. apply bind_Ok in H. destruct H as [[sg p] [ES H]].
  cbn [bind] in H. injection H as <- <-. split; [reflexivity|].
  exact (sign_float_verifies fuel sfuel B T msg sig rng 0 sg p h0 h pk0 pk Bs Ls Hr Lh0 Lpk0 HK HE EB ES).
Qed.
End Sign.
