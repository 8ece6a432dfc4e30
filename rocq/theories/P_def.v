(** P_def.v -- no undefined operation while signing in exact arithmetic: the samplers and the tree walk. *)
From Verif Require Import Base Ring Poly Spec SpecR SpecS M_ff M_xform P_ff P_xform M_codec P_codec M_sig M_verify M_float M_exact P_samp P_sampz P_exp P_exact M_samp M_fft M_ntru P_ntru M_tree P_tree P_brv P_cplx P_fft P_treex P_gs P_leaf P_sign P_norm P_normx.
From Coq Require Import Ring_theory Ring Lra Psatz.
Notation pev := Poly.pev.
Open Scope R_scope.

(** ** samplerz, also for sigma' a little below sigma_min *)
Lemma u64_floor x : 0 <= x < 2 -> exists z, to_u64 RF (ffloor RF (fmul RF (fofz RF 9223372036854775808) x)) = Ok z.
Proof.
  intros H. exists (Rfloor (9223372036854775808 * x)). cbn [ffloor fmul fofz RF]. pose proof (Rfloor_spec (9223372036854775808 * x)) as G.
  apply to_range_IZR. split; [apply Z.lt_succ_r|]; apply lt_IZR; [rewrite succ_IZR|]; lra.
Qed.
Lemma exp_core_ok z1 z2 : exists v, exp_core z1 z2 = Ok v.
Proof. unfold exp_core, Cexp. cbn [rd nth_error bind forn]. eexists. reflexivity. Qed.
Lemma threshold_def x ccs : 0 <= x <= 1152921504606846976 -> 0 <= ccs < 2 -> exists t, ber_threshold RF x ccs = Ok t.
Proof.
  intros Hx Hc. unfold ber_threshold. cbn [ffloor fmul fsub RF]. unfold INV_LN2. rewrite LN2_R. cbn [fdiv fofz RF].
  replace (x * (1 / Lit2)) with (x / Lit2) by (unfold Lit2; field).
  pose proof (Rfloor_spec (x / Lit2)) as G. set (s := Rfloor (x / Lit2)) in *.
  assert (S0 : (0 <= s)%Z). { apply Z.lt_succ_r, lt_IZR. rewrite succ_IZR. unfold Lit2 in *. lra. }
  assert (S1 : (s < 18446744073709551616)%Z). { apply lt_IZR. unfold Lit2 in *. lra. }
  unfold to_u64 at 1. rewrite to_range_IZR by lia. cbn [bind].
  set (r := x - IZR s * Lit2). assert (Hr : 0 <= r < Lit2). { unfold r. unfold Lit2 in *. lra. }
  unfold approx_exp. destruct (u64_floor r ltac:(unfold Lit2 in Hr; lra)) as [z1 ->]. cbn [bind].
  destruct (u64_floor ccs Hc) as [z2 ->]. cbn [bind]. destruct (exp_core_ok z1 z2) as [v ->]. cbn [bind]. eexists. reflexivity.
Qed.
Lemma samplerz_def mu sigma' smin fuel g pos : 1 / 1000 <= sigma' <= 18205 / 10000 -> 0 <= smin < 2 * sigma' -> (Z.abs (Rfloor mu) <= 2147483000)%Z ->
  (forall i, byte (g i)) -> samplerz RF fuel mu sigma' smin g pos <> UB.
Proof.
  intros H1 H2 H3 Hg. unfold samplerz. revert pos. induction fuel as [|fuel IH]; intros pos; cbn [samplerz_loop]; [discriminate|].
  destruct (base_rng_ok g pos Hg) as (z0 & Hz0 & Hi & ->). cbn [bind]. rewrite land1.
  set (b := (g (pos + 9)%nat mod 2)%Z). assert (Hb : (b = 0 \/ b = 1)%Z) by (unfold b; pose proof (Z.mod_pos_bound (g (pos + 9)%nat) 2); lia).
  assert (exists t, ber_threshold RF (exponent RF (fsub RF mu (ffloor RF mu)) (inv_2sq RF sigma') (inv_2sq RF (sigma_max RF)) (Z.of_nat z0) b) (fdiv RF smin sigma') = Ok t) as [t E].
  { rewrite exponent_R by (assumption || lra). pose proof (xval_range mu sigma' z0 b Hz0 Hb ltac:(lra)) as HX. apply threshold_def; [lra|]. cbn [fdiv RF].
    split; [apply Rmult_le_pos; [lra|left; apply Rinv_0_lt_compat; lra]|]. apply Rmult_lt_reg_r with sigma'; [lra|]. replace (smin / sigma' * sigma') with smin by (field; lra). lra. }
  destruct (ber_exp_ok RF _ _ g (S (pos + 9)) t Hg E) as (n & -> & _). cbn [bind]. rewrite <- (signed_eq z0 b Hb).
  destruct (_ =? 1)%Z; [|apply IH]. rewrite to_i32_R by (try apply signed_range; assumption). discriminate.
Qed.
Lemma samplerz_near fuel mu sigma' smin g pos v pos' : (forall i, byte (g i)) -> samplerz RF fuel mu sigma' smin g pos = Ok (v, pos') ->
  Rabs (IZR v - mu) <= 19.
Proof.
  intros Hg H. destruct (samplerz_range RF _ _ _ _ _ _ _ _ Hg H) as (k & z & _ & _ & Hz & E).
  cbn [fadd fofz ffloor RF] in E. rewrite <- plus_IZR in E. unfold to_i32, to_range in E. cbn [ftrunc RF] in E. rewrite Rtrunc_IZR in E.
  destruct (_ && _); [|discriminate]. injection E as <-. pose proof (Rfloor_spec mu) as G. rewrite plus_IZR.
  destruct Hz as [Hz1 Hz2]. apply IZR_le in Hz1, Hz2. apply Rabs_le. lra.
Qed.

(** ** the energy of a run *)
Lemma calls_energy fuel smin g cs : (forall i, byte (g i)) -> forall pos pos', sampler_calls fuel smin g cs pos pos' -> Forall (fun c => 127 / 100 <= stddev c) cs ->
  energy cs <= 112 * INR (length cs).
Proof.
  intros Hg. induction cs as [|c cs IH]; intros pos pos' H HF; [cbn; lra|]. cbn [sampler_calls] in H. destruct H as [p [H1 H2]]. inversion HF as [|? ? Hc HF']. subst.
  specialize (IH _ _ H2 HF'). apply samplerz_near in H1; [|exact Hg]. apply Rabs_le_inv in H1. cbn [length]. rewrite S_INR. unfold energy in *. cbn [fold_right].
  set (e := fold_right _ _ _) in *. set (u := IZR (outcome c) - centre c) in *. set (s := stddev c) in *. clearbody u s e.
  assert (u * u <= 361) by nra. assert (1612 / 1000 <= s * s) by nra.
  assert (u * u / (2 * (s * s)) <= 112).
  { apply Rmult_le_reg_r with (2 * (s * s)); [lra|]. replace (u * u / (2 * (s * s)) * (2 * (s * s))) with (u * u) by (field; nra). lra. }
  lra.
Qed.
Lemma twice_in {A} (x : A) l : In x (twice l) -> In x l.
Proof. unfold twice. rewrite in_flat_map. intros [y [Hy H]]. cbn in H. destruct H as [<-|[<-|[]]]; exact Hy. Qed.

(** coefficients against values *)
Lemma Rsum_nonneg n f : (forall i, (i < n)%nat -> 0 <= f i) -> 0 <= Rsum n f.
Proof. induction n as [|n IH]; intros H; cbn [rsum]; [lra|]. assert (A := IH ltac:(intros; apply H; lia)). assert (B := H n ltac:(lia)). lra. Qed.
Lemma Rsum_term n f k : (k < n)%nat -> (forall i, (i < n)%nat -> 0 <= f i) -> f k <= Rsum n f.
Proof.
  induction n as [|n IH]; intros Hk H; [lia|]. cbn [rsum]. assert (P := Rsum_nonneg n f ltac:(intros; apply H; lia)).
  assert (Pn := H n ltac:(lia)). destruct (Nat.eq_dec k n) as [->|]; [lra|]. specialize (IH ltac:(lia) ltac:(intros; apply H; lia)). lra.
Qed.
Lemma coef_bound lg (p : cpv (2 ^ lg)) X k : (k < 2 ^ lg)%nat -> 0 <= X -> Rsum (2 ^ lg) (fun i => sq (ev p i)) <= INR (2 ^ lg) * (X * X) -> Rabs (fst (cc p k)) <= X.
Proof.
  intros Hk HX H. rewrite parseval in H. assert (PN := INR_pow2_pos lg). apply Rmult_le_reg_l in H; [|exact PN].
  assert (T := Rsum_term (2 ^ lg) (fun j => sq (cc p j)) k Hk ltac:(intros; apply sq_nonneg)). cbv beta in T.
  assert (fst (cc p k) * fst (cc p k) <= X * X).
  { apply Rle_trans with (sq (cc p k)); [|lra]. unfold sq. generalize (snd (cc p k)). intros r. nra. }
  apply Rabs_le. set (v := fst (cc p k)) in *. clearbody v. split; nra.
Qed.

Lemma rds_total {A} (l : list A) n : forall o, (o + n <= length l)%nat -> exists v, rds l o n = Ok v.
Proof.
  induction n as [|n IH]; intros o H; cbn [rds]; [eexists; reflexivity|].
  destruct (nth_error l o) as [x|] eqn:E; [|apply nth_error_None in E; lia]. unfold rd. rewrite E. cbn [bind].
  destruct (IH (S o) ltac:(lia)) as [v ->]. eexists. reflexivity.
Qed.
Lemma floor_small mu M : Rabs mu <= M -> M <= 2147482000 -> (Z.abs (Rfloor mu) <= 2147483000)%Z.
Proof.
  intros H HM. apply Rabs_le_inv in H. pose proof (Rfloor_spec mu) as G. 
  assert (A : (Rfloor mu <= 2147483000)%Z) by (apply le_IZR; lra). assert (B : (-2147483000 <= Rfloor mu)%Z) by (apply le_IZR; lra). lia.
Qed.

Section Walk.
Variables (fuel : nat) (smin : R) (g : rng_t) (T : list Cx) (sigma : R).
Hypothesis Hsigma : 0 < sigma.
Hypothesis Hg : forall i, byte (g i).
Hypothesis Hsmin : 0 <= smin < 254 / 100.
Variables (delta K : R).
Hypothesis Hdelta : 0 < delta.
Hypothesis HK0 : 0 <= K.
Hypothesis HK : 2 * (sigma * sigma) * 112 * 1024 <= K * K * delta.
Definition good_leaves (ls : list Cx) : Prop := Forall (fun x : Cx => 127 / 100 <= fst x <= 18205 / 10000) ls.
Notation claim := (sub_claim fuel smin g T sigma).
Notation run := (fun h lvl off (a b : list Cx) pos => ff_sampling RF exact_table fuel h lvl a b T off smin g pos).

Lemma claim_energy h lvl off d ls (p : cpv (2 ^ S h)) pos z0 z1 pos' : claim h lvl off d ls -> good_leaves ls -> creal p ->
  run h lvl off (@ft h (pev Cx Czero p)) (@ft h (pod Cx Czero p)) pos = Ok (z0, z1, pos') ->
  exists a : zpv (2 ^ S h), z0 = @ft h (pev Cx Czero (@emb (2 ^ S h) a)) /\ z1 = @ft h (pod Cx Czero (@emb (2 ^ S h) a)) /\
    Rsum (2 ^ S h) (fun i => d i * sq (Csub (@ev (S h) p i) (@ev (S h) (emb a) i))) <= INR (2 ^ S h) * (2 * (sigma * sigma) * 112 * INR (2 ^ S h)).
Proof.
  intros C GL Hp H. destruct (C p pos z0 z1 pos' Hp H) as [a [cs [-> [-> [Lc [Cs [Ds En]]]]]]]. exists a. split; [reflexivity|]. split; [reflexivity|].
  assert (EB := calls_energy fuel smin g cs Hg _ _ Cs). rewrite Lc in EB.
  assert (EB' : energy cs <= 112 * INR (2 ^ S h)).
  { apply EB. rewrite Forall_forall. intros c Hc. assert (I : In (stddev c) (twice (rev (map (fun x : Cx => fst x) ls)))) by (rewrite <- Ds; apply in_map; exact Hc).
    apply twice_in, in_rev, in_map_iff in I. destruct I as [x [<- Hx]]. unfold good_leaves in GL. rewrite Forall_forall in GL. apply GL. exact Hx. }
  rewrite En in EB'. assert (PN := INR_pow2_pos (S h)). assert (Ps : 0 < 2 * (sigma * sigma)) by nra.
  set (S := rsum _ _ _ _ _) in *. clearbody S. set (n := INR _) in *. clearbody n. set (s := 2 * (sigma * sigma)) in *. clearbody s.
  apply (Rmult_le_compat_l (s * n)) in EB'; [|nra]. replace (s * n * (/ s * (S / n))) with S in EB' by (field; lra). lra.
Qed.

Lemma node_def h lvl off (l : list Cx) db lb (p0 p1 pl : cpv (2 ^ S h)) M Kc pos : (S h <= 10)%nat -> (off + 2 ^ S h <= length T)%nat ->
  length l = (2 ^ S h)%nat -> (forall i, (i < 2 ^ S h)%nat -> nth (off + i) T Czero = nth i l Czero) -> l = ft pl ->
  claim h (S lvl) (off + 2 ^ (lvl + S h) + 2 ^ h) db lb -> good_leaves lb ->
  herm p0 -> herm p1 -> herm pl ->
  run h (S lvl) (off + 2 ^ (lvl + S h) + 2 ^ h)%nat (@ft h (pev Cx Czero p1)) (@ft h (pod Cx Czero p1)) pos <> UB ->
  (forall (p : cpv (2 ^ S h)) pos, creal p -> (forall k, (k < 2 ^ S h)%nat -> Rabs (fst (cc p k)) <= M + Kc) ->
     run h (S lvl) (off + 2 ^ (lvl + S h))%nat (@ft h (pev Cx Czero p)) (@ft h (pod Cx Czero p)) pos <> UB) ->
  (forall k, (k < 2 ^ S h)%nat -> Rabs (fst (cc p0 k)) <= M) ->
  (forall a1 : zpv (2 ^ S h), Rsum (2 ^ S h) (fun i => db i * sq (Csub (ev p1 i) (ev (emb a1) i))) <= INR (2 ^ S h) * (2 * (sigma * sigma) * 112 * INR (2 ^ S h)) ->
     forall k, (k < 2 ^ S h)%nat -> Rabs (fst (cc (cpmul (cpsub p1 (emb a1)) pl) k)) <= Kc) ->
  run (S h) lvl off (ft p0) (ft p1) pos <> UB.
Proof.
  intros Hh LT Ll Hl El Cb Gb H0 H1 Hp Rr Rl B0 Bc H. cbn [ff_sampling] in H. rewrite half_pow2 in H. rewrite <- Nat.pow_add_r in H.
  assert (LF : @length Cx (fresh RF (2 ^ h)) = (2 ^ h)%nat) by apply repeat_length.
  assert (LF' : @length Cx (fresh RF (2 ^ S h)) = (2 ^ S h)%nat) by apply repeat_length.
  destruct (rds_total (T : list (D RF * D RF)) (2 ^ S h) off LT) as [lT Er]. rewrite Er in H. cbn [bind] in H.
  assert (E : lT = ft pl).
  { destruct (rds_inv Czero (T : list Cx) _ _ _ Er) as [L1 N1]. rewrite <- El.
    apply (@list_ext Cx Czero); [rewrite Ll; exact L1|]. intros i Hi. change (i < @length Cx lT)%nat in Hi. assert (i < 2 ^ S h)%nat by (rewrite <- L1; exact Hi).
    etransitivity; [apply N1; assumption|]. apply Hl. assumption. }
  subst lT. rewrite split_ok in H by assumption. cbn [bind] in H.
  destruct (ff_sampling RF exact_table fuel h (S lvl) (@ft h (pev Cx Czero p1)) (@ft h (pod Cx Czero p1)) T (off + 2 ^ (lvl + S h) + 2 ^ h) smin g pos) as [[[zr0 zr1] pr]| |] eqn:Hr;
    cbn [bind] in H; [|exact (Rr eq_refl)|discriminate].
  apply (claim_energy _ _ _ _ _ _ _ _ _ _ Cb Gb) in Hr; [|apply (herm_real (S h)); assumption]. destruct Hr as [a1 [-> [-> Er1]]].
  rewrite merge_ok in H by assumption. cbn [bind] in H. rewrite pint_eo in H.
  change (2 * 2 ^ h)%nat with (2 ^ S h)%nat in H.
  rewrite cpoly_sub_ok in H by assumption. cbn [bind] in H.
  rewrite cpoly_mul_ok in H by assumption. cbn [bind] in H.
  rewrite cpoly_add_ok in H by apply ft_length. cbn [bind] in H.
  assert (Bn := Bc a1 Er1). set (cr := cpmul (cpsub p1 (emb a1)) pl) in *.
  set (pn := cpadd p0 cr) in *.
  rewrite split_ok in H by assumption. cbn [bind] in H.
  assert (Rn : creal pn). { apply (herm_real (S h)); [assumption|]; unfold pn, cr; apply herm_add; [assumption|]; apply herm_mul; [|assumption]; apply herm_sub; [assumption|apply herm_emb]. }
  assert (Cn : forall k, (k < 2 ^ S h)%nat -> Rabs (fst (cc pn k)) <= M + Kc).
  { intros k Hk. unfold pn. unfold Poly.padd. rewrite pc_mkp by exact Hk. specialize (B0 k Hk). specialize (Bn k Hk). revert B0 Bn. generalize (cc p0 k) (cc cr k). intros [x y] [u v]. cbn. intros A B.
    eapply Rle_trans; [apply Rabs_triang|]. lra. }
  specialize (Rl pn pr Rn Cn).
  destruct (ff_sampling RF exact_table fuel h (S lvl) (@ft h (pev Cx Czero pn)) (@ft h (pod Cx Czero pn)) T (off + 2 ^ (lvl + S h)) smin g pr) as [[[zl0 zl1] p']| |] eqn:Hl';
    cbn [bind] in H; [|exact (Rl eq_refl)|discriminate].
  assert (Ll0 : exists a : zpv (2 ^ S h), zl0 = @ft h (pev Cx Czero (@emb (2 ^ S h) a)) /\ zl1 = @ft h (pod Cx Czero (@emb (2 ^ S h) a))).
  { destruct (ffsamp_int fuel smin g T h (S lvl) _ _ _ _ _ _ _ ltac:(lia) (ft_length h _) (ft_length h _) Hl') as [b0 [b1 [-> ->]]].
    destruct (emb_pint h b0 b1) as [b Eb]. exists b. rewrite Eb, pev_pint, pod_pint. split; reflexivity. }
  destruct Ll0 as [a0 [-> ->]]. rewrite merge_ok in H by assumption. discriminate H.
Qed.

(** the node at the top of a subtree *)
Lemma sub_node h d : (S (S h) <= 10)%nat -> (forall i, (i < 2 ^ S (S h))%nat -> 0 < d i) -> (forall i, (i < 2 ^ S (S h))%nat -> d (2 ^ S (S h) - 1 - i)%nat = d i) ->
  exists (l : list Cx) (pl : cpv (2 ^ S h)), sub (S h) (rv (2 ^ S (S h)) d) = Node RF l (sub h (rv (2 ^ S h) (am2 d))) (sub h (rv (2 ^ S h) (hm2 d))) /\
    (length l = (2 ^ S h)%nat -> l = ft pl /\ herm pl /\ forall i, (i < 2 ^ S h)%nat -> sq (ev pl i) <= 1) /\
    (forall i, (i < 2 ^ S h)%nat -> am2 d (2 ^ S h - 1 - i) = am2 d i) /\ (forall i, (i < 2 ^ S h)%nat -> hm2 d (2 ^ S h - 1 - i) = hm2 d i).
Proof.
  intros Hh Hd Hs. assert (P2 := pow2_pos (S h)).
  assert (E2 : (2 ^ S (S h) = 2 * 2 ^ S h)%nat) by reflexivity.
  assert (Hd' : forall i, (i < 2 * 2 ^ S h)%nat -> 0 < d i) by (intros; apply Hd; lia).
  assert (Hs' : forall i, (i < 2 ^ S h)%nat -> d (2 * (2 ^ S h - 1 - i))%nat = d (2 * i + 1)%nat /\ d (2 * (2 ^ S h - 1 - i) + 1)%nat = d (2 * i)%nat).
  { intros i Hi. split; [rewrite <- (Hs (2 * i + 1)%nat) by lia|rewrite <- (Hs (2 * i)%nat) by lia]; f_equal; lia. }
  assert (Sam : forall i, (i < 2 ^ S h)%nat -> am2 d (2 ^ S h - 1 - i) = am2 d i).
  { intros i Hi. unfold am2. destruct (Hs' i Hi) as [-> ->]. lra. }
  set (l := vl10 RF (2 ^ S h) (rv (2 ^ S h) (am2 d)) (map (cconj RF) (vspl1 RF exact_table (S h) (rv (2 ^ S (S h)) d)))).
  assert (Ll : length l = (2 ^ S h)%nat) by apply vop_length.
  destruct (herm_list (S h) l ltac:(lia) Ll) as [pl [El Hpl]].
  { intros i Hi. unfold l. rewrite !sub_l10 by (assumption || lia). rewrite Sam by exact Hi. destruct (Hs' i Hi) as [-> ->].
    replace (2 * (2 ^ S h - 1 - i))%nat with (2 ^ S (S h) - 1 - (2 * i + 1))%nat by lia. rewrite pt_compl by lia. rewrite pt_odd.
    assert (Pm := am2_pos _ d P2 Hd' i Hi). revert Pm.
    generalize (pt (S (S h)) (2 * i)) (am2 d i). intros [x y] m Pm. apply Cx_eq; unfold Cof; cx; field; lra. }
  exists l, pl. split.
  { change (sub (S h) (rv (2 ^ S (S h)) d)) with
      (ltree RF exact_table (S h) (vspl0 RF (S h) (rv (2 ^ S (S h)) d)) (map (cconj RF) (vspl1 RF exact_table (S h) (rv (2 ^ S (S h)) d))) (map (cconj RF) (vspl0 RF (S h) (rv (2 ^ S (S h)) d)))).
    rewrite spl0_rv, rv_conj, ltree_sub. change (fun i => (d (2 * i)%nat + d (2 * i + 1)%nat) / 2) with (am2 d). f_equal. f_equal.
    etransitivity; [apply d11_rv; intros i Hi; apply Rgt_not_eq; apply (am2_pos (2 ^ S h)); assumption|].
    apply tab_ext. intros i Hi. apply (f_equal Cof). unfold hm2. f_equal. f_equal. apply spl1_rv; assumption. }
  split; [intros _; split; [exact El|]; split; [exact Hpl|]|split; [exact Sam|]].
  - intros i Hi. assert (Lpl : ev pl i = Cmul (Cof ((d (2 * i)%nat - d (2 * i + 1)%nat) / (2 * am2 d i))) (pt (S (S h)) (2 * i))).
    { rewrite <- (nth_ft (S h) pl i Hi), <- El. unfold l. apply sub_l10; assumption. }
    rewrite Lpl, sq_mul, sq_pt, Rmult_1_r. clear Lpl. assert (D0 := Hd' (2 * i)%nat ltac:(lia)). assert (D1 := Hd' (2 * i + 1)%nat ltac:(lia)).
    unfold am2. generalize dependent (d (2 * i)%nat). generalize dependent (d (2 * i + 1)%nat). clear. intros b Hb a Ha. unfold sq, Cof. cbn [fst snd].
    replace (2 * ((a + b) / 2)) with (a + b) by field. set (r := (a - b) / (a + b)). assert (Hr : r * (a + b) = a - b) by (unfold r; field; apply Rgt_not_eq; lra). clearbody r.
    assert (- 1 <= r <= 1) by (split; nra). nra.
  - intros i Hi. unfold hm2. rewrite Sam by exact Hi. destruct (Hs' i Hi) as [-> ->]. unfold Rdiv. ring.
Qed.

Lemma am2_low n d i : (i < n)%nat -> (forall i, (i < 2 * n)%nat -> delta <= d i) -> delta <= am2 d i.
Proof. intros Hi H. unfold am2. assert (A := H (2 * i)%nat ltac:(lia)). assert (B := H (2 * i + 1)%nat ltac:(lia)). lra. Qed.
Lemma hm2_low n d i : (i < n)%nat -> (forall i, (i < 2 * n)%nat -> delta <= d i) -> delta <= hm2 d i.
Proof.
  intros Hi H. assert (A := H (2 * i)%nat ltac:(lia)). assert (B := H (2 * i + 1)%nat ltac:(lia)).
  assert (Hn : (0 < n)%nat) by lia. assert (Hd : forall i, (i < 2 * n)%nat -> 0 < d i) by (intros j Hj; specialize (H j Hj); lra).
  assert (E := hm2_inv n d Hn Hd i Hi). assert (P := hm2_pos n d Hn Hd i Hi).
  assert (/ hm2 d i <= / delta). { rewrite E. apply Rinv_le_contravar in A; [|exact Hdelta]. apply Rinv_le_contravar in B; [|exact Hdelta]. lra. }
  rewrite <- (Rinv_inv delta), <- (Rinv_inv (hm2 d i)). apply Rinv_le_contravar; [apply Rinv_0_lt_compat; exact P|exact H0].
Qed.

Definition sub_def (h lvl off : nat) : Prop := forall (p : cpv (2 ^ S h)) pos M, creal p -> (forall k, (k < 2 ^ S h)%nat -> Rabs (fst (cc p k)) <= M) ->
  M + INR h * K <= 2147482000 -> run h lvl off (@ft h (pev Cx Czero p)) (@ft h (pod Cx Czero p)) pos <> UB.

(** the correction l10 * (t1 - z1) when the weights are at least delta and |l10| <= 1 *)
Lemma small_corr h d (p1 pl : cpv (2 ^ S h)) (a1 : zpv (2 ^ S h)) : (S h <= 10)%nat -> (forall i, (i < 2 ^ S h)%nat -> delta <= d i) ->
  (forall i, (i < 2 ^ S h)%nat -> sq (ev pl i) <= 1) ->
  Rsum (2 ^ S h) (fun i => d i * sq (Csub (ev p1 i) (ev (emb a1) i))) <= INR (2 ^ S h) * (2 * (sigma * sigma) * 112 * INR (2 ^ S h)) ->
  forall k, (k < 2 ^ S h)%nat -> Rabs (fst (cc (cpmul (cpsub p1 (emb a1)) pl) k)) <= K.
Proof.
  intros Hh Hd Hl HE k Hk. apply (coef_bound (S h)); [exact Hk|exact HK0|]. assert (PN := INR_pow2_pos (S h)).
  assert (A : delta * Rsum (2 ^ S h) (fun i => sq (ev (cpmul (cpsub p1 (emb a1)) pl) i)) <= Rsum (2 ^ S h) (fun i => d i * sq (Csub (ev p1 i) (ev (emb a1) i)))).
  { rewrite <- Rsum_scal. apply Rsum_le. intros i Hi. rewrite ev_mul, ev_sub, sq_mul. specialize (Hd i Hi). specialize (Hl i Hi).
    assert (S1 := sq_nonneg (Csub (ev p1 i) (ev (emb a1) i))). assert (S2 := sq_nonneg (ev pl i)).
    set (x := sq (Csub _ _)) in *. set (y := sq (ev pl i)) in *. set (dd := d i) in *. clearbody x y dd.
    apply Rmult_le_compat; nra. }
  assert (N1024 : INR (2 ^ S h) <= 1024). { replace 1024 with (INR (2 ^ 10)); [apply le_INR, Nat.pow_le_mono_r; lia|]. rewrite INR_IZR_INZ. f_equal. }
  set (S0 := rsum _ _ _ _ _) in A |- *. set (S1 := rsum _ _ _ _ _) in A, HE. clearbody S0 S1. set (n := INR _) in *. clearbody n. clear - A HE HK PN N1024 Hdelta Hsigma.
  apply Rmult_le_reg_l with delta; [exact Hdelta|].
  apply Rle_trans with (n * (2 * (sigma * sigma) * 112 * n)); [lra|].
  replace (delta * (n * (K * K))) with (n * (K * K * delta)) by ring. apply Rmult_le_compat_l; [lra|]. apply Rle_trans with (2 * (sigma * sigma) * 112 * 1024); [|exact HK].
  apply Rmult_le_compat_l; [nra|exact N1024].
Qed.

Lemma sub_defined : forall h lvl off d, (S h <= 10)%nat -> (forall i, (i < 2 ^ S h)%nat -> delta <= d i) ->
  (forall i, (i < 2 ^ S h)%nat -> d (2 ^ S h - 1 - i)%nat = d i) -> (off + h * 2 ^ (lvl + h) + 2 ^ h <= length T)%nat ->
  stored RF (2 ^ (lvl + h)) h T off (ntree RF sigma (sub h (rv (2 ^ S h) d))) ->
  good_leaves (leaves (ntree RF sigma (sub h (rv (2 ^ S h) d)))) -> sub_def h lvl off.
Proof.
  induction h as [|h IH]; intros lvl off d Hh Hd Hs LT St GL p pos M Hp HM BM H.
  - cbn [sub ntree stored P_tree.leaves] in *. inversion GL as [|? ? G0 _]. subst.
    cbn [ff_sampling] in H. 
    assert (exists x, rd T off = Ok x /\ fst x = fst (nleaf RF sigma (nth 0 (rv (2 ^ 1) d) (c0 RF)))) as [x [Hx Ex]].
    { destruct (nth_error T off) as [x|] eqn:E; [|apply nth_error_None in E; simpl in LT; lia]. exists x. unfold rd. rewrite E. split; [reflexivity|].
      apply nth_error_nth with (d := c0 RF) in E. rewrite <- E. apply f_equal. exact St. }
    match type of H with bind ?e _ = _ => replace e with (@Ok Cx x) in H by (symmetry; exact Hx) end. cbn [bind] in H. clear Hx.
    assert (Ea : rd (@ft 0 (pev Cx Czero p)) 0 = Ok (cc p 0)).
    { rewrite (rd_Ok _ _ Czero) by (rewrite ft_length; simpl; lia). f_equal. etransitivity; [apply (nth_ft 0); simpl; lia|]. rewrite ev0. unfold Poly.pev. rewrite pc_mkp by (simpl; lia). reflexivity. }
    assert (Eb : rd (@ft 0 (pod Cx Czero p)) 0 = Ok (cc p 1)).
    { rewrite (rd_Ok _ _ Czero) by (rewrite ft_length; simpl; lia). f_equal. etransitivity; [apply (nth_ft 0); simpl; lia|]. rewrite ev0. unfold pod. rewrite pc_mkp by (simpl; lia). reflexivity. }
    match type of H with bind ?e _ = _ => replace e with (@Ok Cx (cc p 0)) in H by (symmetry; exact Ea) end. cbn [bind] in H. simpl (INR 0) in BM.
    assert (M0 := HM 0%nat ltac:(simpl; lia)). assert (M1 := HM 1%nat ltac:(simpl; lia)).
    assert (G : 127 / 100 <= fst x <= 18205 / 10000) by (rewrite Ex; exact G0). clear G0.
    assert (N0 := samplerz_def (fst (cc p 0)) (fst x) smin fuel g pos ltac:(lra) ltac:(lra) (floor_small _ M M0 ltac:(lra)) Hg).
    match type of H with bind ?e _ = _ => change e with (samplerz RF fuel (fst (cc p 0)) (fst x) smin g pos) in H end.
    destruct (samplerz RF fuel (fst (cc p 0)) (fst x) smin g pos) as [[u p1]| |] eqn:E0; cbn [bind] in H; [|exact (N0 eq_refl)|discriminate].
    match type of H with bind ?e _ = _ => replace e with (@Ok Cx (cc p 1)) in H by (symmetry; exact Eb) end. cbn [bind] in H.
    assert (N1 := samplerz_def (fst (cc p 1)) (fst x) smin fuel g p1 ltac:(lra) ltac:(lra) (floor_small _ M M1 ltac:(lra)) Hg).
    match type of H with bind ?e _ = _ => change e with (samplerz RF fuel (fst (cc p 1)) (fst x) smin g p1) in H end.
    destruct (samplerz RF fuel (fst (cc p 1)) (fst x) smin g p1) as [[v p2]| |] eqn:E1; cbn [bind] in H; [discriminate|exact (N1 eq_refl)|discriminate].
  - assert (Hdp : forall i, (i < 2 ^ S (S h))%nat -> 0 < d i) by (intros i Hi; specialize (Hd i Hi); lra).
    destruct (sub_node h d Hh Hdp Hs) as [l [pl [Es [Hl [Sam Shm]]]]].
    rewrite Es in St, GL. cbn [ntree stored] in St. cbn [ntree P_tree.leaves] in GL. destruct St as [Ll [Nl [Sa Sb]]].
    apply Forall_app in GL. destruct GL as [Ga Gb]. destruct (Hl Ll) as [El [Hpl Hl1]]. clear Hl.
    assert (E2 : (2 ^ S (S h) = 2 * 2 ^ S h)%nat) by reflexivity. assert (E3 : (2 ^ S h = 2 * 2 ^ h)%nat) by reflexivity.
    assert (Ew : (2 ^ (lvl + S h) = 2 ^ (S lvl + h))%nat) by (f_equal; lia).
    assert (Ew2 : (2 ^ S h <= 2 ^ (lvl + S h))%nat) by (apply Nat.pow_le_mono_r; lia).
    assert (H0 : herm (pev Cx Czero p : cpv (2 ^ S h))) by (apply real_herm, real_pev, Hp).
    assert (H1 : herm (pod Cx Czero p : cpv (2 ^ S h))) by (apply real_herm, real_pod, Hp).
    assert (Cb : claim h (S lvl) (off + 2 ^ (lvl + S h) + 2 ^ h) (hm2 d) (leaves (ntree RF sigma (sub h (rv (2 ^ S h) (hm2 d)))))).
    { apply sub_run; [lra|lia|intros i Hi; apply (hm2_pos (2 ^ S h)); [apply pow2_pos|intros; apply Hdp; lia|exact Hi]|exact Shm|]. rewrite Ew in Sb |- *. exact Sb. }
    assert (Da : sub_def h (S lvl) (off + 2 ^ (lvl + S h))).
    { apply (IH (S lvl) _ (am2 d)); [lia|intros i Hi; apply (am2_low (2 ^ S h)); [exact Hi|intros; apply Hd; lia]|exact Sam| | |exact Ga].
      - rewrite <- Ew. simpl Nat.mul in LT. lia.
      - rewrite Ew in Sa |- *. exact Sa. }
    assert (Db : sub_def h (S lvl) (off + 2 ^ (lvl + S h) + 2 ^ h)).
    { apply (IH (S lvl) _ (hm2 d)); [lia|intros i Hi; apply (hm2_low (2 ^ S h)); [exact Hi|intros; apply Hd; lia]|exact Shm| | |exact Gb].
      - rewrite <- Ew. simpl Nat.mul in LT. lia.
      - rewrite Ew in Sb |- *. exact Sb. }
    rewrite S_INR in BM. 
    assert (C0 : forall k, (k < 2 ^ S h)%nat -> Rabs (fst (cc (pev Cx Czero p : cpv (2 ^ S h)) k)) <= M) by (intros k Hk; unfold Poly.pev; rewrite pc_mkp by exact Hk; apply HM; lia).
    assert (C1 : forall k, (k < 2 ^ S h)%nat -> Rabs (fst (cc (pod Cx Czero p : cpv (2 ^ S h)) k)) <= M) by (intros k Hk; unfold pod; rewrite pc_mkp by exact Hk; apply HM; lia).
    refine (node_def h lvl off l (hm2 d) _ _ _ pl M K pos ltac:(lia) _ Ll Nl El Cb Gb H0 H1 Hpl _ _ C0 _ H).
    + simpl Nat.mul in LT. lia.
    + apply (Db _ _ M); [apply herm_real; [lia|exact H1]|exact C1|lra].
    + intros p' pos' Rp Cp. apply (Da _ _ (M + K)); [exact Rp|exact Cp|lra].
    + intros a1 HE. apply (small_corr h (hm2 d)); [lia| |exact Hl1|exact HE]. intros i Hi. apply (hm2_low (2 ^ S h)); [exact Hi|intros; apply Hd; lia].
Qed.
End Walk.
