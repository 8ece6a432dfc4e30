(** P_loops.v -- the signatures of sign: existence of a vector that signing accepts, and the distribution of the results of sign. *)
From Verif Require Import Base Ring Poly Spec SpecR SpecS SpecG SpecJ SpecM M_ff M_xform P_xform M_codec P_codec P_keys M_ntt M_sig P_sig P_comp P_sigx M_verify M_float M_exact P_exact M_samp M_fft M_ntru P_ntru M_tree P_tree P_brv P_cplx P_fft P_treex P_gs P_leaf P_sign P_signb P_signx P_signv P_norm P_normx P_defx P_live.
From Verif Require Import P_prob P_dist P_joint P_gsum P_prog P_jprob P_pnorm P_pdef P_jfin P_jtot P_jkey P_jgauss P_coset P_jcoset P_loop P_loopk.
From Verif Require P_verifyx P_key.
From Coq Require Import Lra.
Open Scope R_scope.
Notation ind := P_prob.ind.

Section Key.
Variable lg : nat.
Hypothesis Hlg : falcon_lg lg.
Notation N := (2 ^ lg)%nat.
Variables f g F_ G_ : list Z.
Hypothesis K : sound_key lg f g F_ G_.
Variables h0 h : list Z.
Hypothesis Lh0 : length h0 = N.
Hypothesis HK : compute_public_key lg f g h0 = Ok h.
Notation wt s := (exp (- (IZR (sqnorm (fst s) + sqnorm (snd s)) / (2 * (sigma_value RF lg * sigma_value RF lg))))).
Notation sm := (sigma_min RF lg).

(** ** rounding to the nearest plane gives a vector that is accepted *)
Lemma live_leaves : Forall (live_leaf (127 / 100) (sigma_value RF lg) 16823) (leaves (ntree RF (sigma_value RF lg) (root_tree lg f g F_ G_))).
Proof.
  destruct K as (Lf & Lg & LF & LG & HN & HGS & _ & BF & BG & _).
  assert (H1 : (1 <= lg <= 10)%nat) by (destruct Hlg as [->| ->]; lia).
  rewrite ntree_leaves. rewrite Forall_forall. intros x Hx. apply in_map_iff in Hx. destruct Hx as [y [<- Hy]].
  assert (RL := root_leaves lg ltac:(lia) f g F_ G_ Lf Lg LF LG HN ltac:(lia)). rewrite Forall_forall in RL. destruct (RL y Hy) as [R0 [R1 [R2 R3]]].
  assert (R := leaf_range lg (gs_norm lg f g) (fst y) Hlg R1 (conj (inv_bound _ _ _ P_treex.qq_pos R1 R2 R3) R3) HGS).
  assert (S3 := sigma_small lg Hlg). assert (S4 : 16823 * (127 / 100 * (127 / 100)) <= sigma_value RF lg * sigma_value RF lg) by (destruct Hlg as [->| ->]; [rewrite sigma_9|rewrite sigma_10]; lra).
  unfold live_leaf, nleaf. cbn [fst cof].
  change (127 / 100 <= sigma_value RF lg / sqrt (fst y) <= 18205 / 10000 /\ sigma_value RF lg * sigma_value RF lg <= 16823 * (sigma_value RF lg / sqrt (fst y) * (sigma_value RF lg / sqrt (fst y)))).
  assert (Hi : sigma_value RF lg / sqrt (fst y) <= 18205 / 10000). { revert R. unfold leaf_hi. destruct Hlg as [->| ->]; cbn [Nat.eqb]; lra. }
  clear R. change (fst y) with (fst y : R) in *. set (d := fst y : R) in *. set (s := sigma_value RF lg : R) in *. clearbody d s.
  assert (D1 : d <= 16823) by lra. assert (Q0 := sqrt_lt_R0 d R1). assert (SS := sqrt_sqrt d ltac:(lra)). set (r := sqrt d) in *. clearbody r.
  assert (E : s / r * r = s) by (field; lra). set (l := s / r) in *. clearbody l.
  assert (Pl : 0 < l) by nra.
  assert (Ks : s * s = l * l * d) by (rewrite <- SS, <- E; ring).
  split; [split; [|exact Hi]|rewrite Ks; nra].
  destruct (Rle_or_lt (127 / 100) l) as [|C]; [assumption|]. exfalso. assert (l * l < 127 / 100 * (127 / 100)) by nra. assert (l * l * d <= l * l * 16823) by nra. lra.
Qed.
Lemma signable_ex c : length c = N -> Forall canon c -> exists s, signable lg c h s.
Proof.
  destruct K as (Lf & Lg & LF & LG & HN & HGS & Hsm & BF & BG & Sf & Sg & HI). intros Lc Hc. assert (H1 : (1 <= lg <= 10)%nat) by (destruct Hlg as [->| ->]; lia).
  set (T0 := fresh RF (N * (lg + 1))). assert (LT : ((lg + 1) * N <= length T0)%nat). { unfold T0. change (fresh RF (N * (lg + 1))) with (repeat (c0 RF) (N * (lg + 1))). rewrite repeat_length. lia. }
  destruct (tree_ok lg f g F_ G_ T0 H1 Lf Lg LF LG HN LT) as [T [E [L St]]].
  assert (LT' : ((lg + 1) * N <= length T)%nat) by (change (list (D RF * D RF)) with (list Cx) in L; rewrite L; exact LT).
  assert (RL := live_leaves). assert (S3 := sigma_small lg Hlg).
  assert (S4 : 0 < 16823 <= 2 * (sigma_value RF lg * sigma_value RF lg) * 112) by (destruct Hlg as [->| ->]; [rewrite sigma_9|rewrite sigma_10]; lra).
  assert (RN : exists (a0 a1 : zpv N), IZR (sqnorm (Poly.pl Z N (sv0 lg g G_ c a0 a1)) + sqnorm (Poly.pl Z N (sv1 lg f F_ a0 a1))) <= INR N * (16823 / 2)).
  { clear E LT. assert (HGS' : gs_norm lg f g <= 16823) by lra. revert S3 S4 RL St. clear L Hsm HGS K. generalize (sigma_value RF lg). intros sg S3 S4 RL St.
    assert (exists h, lg = S h) as [j Eh] by (exists (lg - 1)%nat; lia). clear Hlg HK. subst lg.
    destruct (root_near j (proj2 H1) f g F_ G_ Lf Lg LF LG HN HGS' BF BG (127 / 100) T sg 16823 c 0 S3 ltac:(lra) S4 Hc LT' St RL) as (bl & a0 & a1 & _ & _ & X & _). exists a0, a1. exact X. }
  destruct RN as (a0 & a1 & Nb). set (b0 := Poly.pl Z N a0). set (b1 := Poly.pl Z N a1). assert (L0 : length b0 = N) by apply pl_length. assert (L1 : length b1 = N) by apply pl_length.
  exists (psub N (psub N c (negacyclic N b0 g)) (negacyclic N b1 G_), padd N (negacyclic N b0 f) (negacyclic N b1 F_)).
  assert (E1 : Poly.pl Z N (sv0 lg g G_ c a0 a1) = psub N (psub N c (negacyclic N b0 g)) (negacyclic N b1 G_)) by (unfold sv0; rewrite (v1_pl lg g G_ c b0 b1 Lc); unfold b0, b1; rewrite !ofl_pl; reflexivity).
  assert (E2 : Poly.pl Z N (sv1 lg f F_ a0 a1) = padd N (negacyclic N b0 f) (negacyclic N b1 F_)) by (unfold sv1; rewrite (v2_pl lg f F_ b0 b1); unfold b0, b1; rewrite !ofl_pl; reflexivity).
  rewrite E1, E2 in Nb. split; [|cbn [fst snd]].
  - apply (vec_in lg Hlg f g F_ G_ Lf Lg LF LG HN Sf Sg HI h0 h Lh0 HK c (b0, b1) Lc (conj L0 L1)).
  - set (s1 := psub N (psub N c (negacyclic N b0 g)) (negacyclic N b1 G_)) in *. set (s2 := padd N (negacyclic N b0 f) (negacyclic N b1 F_)) in *. assert (Ls2 : length s2 = N) by apply tab_length.
    assert (Zb : (sqnorm s1 + sqnorm s2 <= 8412 * Z.of_nat N)%Z). { apply le_IZR. eapply Rle_trans; [exact Nb|]. rewrite mult_IZR, <- INR_IZR_INZ. assert (0 <= INR N) by apply pos_INR. lra. }
    assert (TS := tot_sq s2). rewrite Ls2 in TS. assert (Y := sqnorm_pos s1).
    clear - Hlg Zb TS Y. destruct Hlg as [->| ->]; [change (Z.of_nat (2 ^ 9)) with 512%Z in *; change (body_len 9) with 5000%Z; change (beta2 9) with 34034726%Z
                              |change (Z.of_nat (2 ^ 10)) with 1024%Z in *; change (body_len 10) with 9912%Z; change (beta2 10) with 70265242%Z]; lia.
Qed.

(** ** the result of sign in terms of the loop *)
Lemma stream_salt (salt w : list Z) : length salt = 40%nat -> map (fun i => stream (salt ++ w) (0 + i)%nat) (seq 0 40) = salt.
Proof. intros L. apply map_nth_seq; [exact L|]. intros i Hi. cbn [Nat.add]. unfold stream. apply app_nth1. lia. Qed.
Lemma sign_bt_loop B T xof c t0 t1 msg salt sig w m k s2 : (sig_bytes lg <= length sig)%nat -> length salt = 40%nat -> hash_to_point k xof lg salt msg (repeat 0%Z N) = Ok c ->
  sign_target RF exact_table lg B c = Ok (t0, t1) ->
  match sign_bt RF exact_table m k xof lg B T msg sig (stream (salt ++ w)) 0 with Ok (e, _) => body_is lg s2 e | _ => false end =
  ends_with (body_is lg s2) (sign_loop RF exact_table m k lg B T t0 t1 sm (beta2 lg) (stream w) 0 sig).
Proof.
  intros Ls Lsa Hh Ht. unfold sign_bt, rng_read. rewrite (stream_salt salt w Lsa), Hh. cbn [bind]. rewrite Ht. cbn [bind]. replace (beta2_values lg) with (beta2 lg) by (destruct Hlg as [->| ->]; reflexivity).
  cbn [Nat.add]. rewrite (run_lp RF exact_table lg B T t0 t1 sm (beta2 lg) k (stream w) m 0 sig).
  destruct (sign_loop RF exact_table m k lg B T t0 t1 sm (beta2 lg) (stream (salt ++ w)) 40 sig) as [[e p]| |] eqn:El; cbn [bind].
  all: assert (El' := El); rewrite run_lp in El'; rewrite (run_skip RF sm k _ (salt ++ w) 40) in El'; rewrite skipn_app, (skipn_all2 salt) in El' by lia; rewrite Lsa in El'; cbn [app Nat.sub skipn] in El'.
  all: destruct (@run RF sm _ k (stream w) (lp RF exact_table lg B T t0 t1 (beta2 lg) m sig) 0) as [[e' p']| |]; try discriminate; try reflexivity.
  assert (e' = e) by congruence. subst e'. cbn [ends_with].
  destruct (sign_loop_inv RF exact_table lg B T t0 t1 sm (beta2 lg) k _ Hlg m 40 sig e p Ls El) as (s2' & body & _ & Lb & _ & Ee).
  destruct (sig_dims lg Hlg) as (D1 & _). assert (Le : length e = length sig) by (rewrite Ee, !app_length, firstn_length, Lb, skipn_length; lia).
  rewrite wr_Ok by lia. cbn [bind]. rewrite wrs_ok; [|rewrite Lsa, upd_length; lia]. cbn [bind]. unfold body_is, body_bits. rewrite Lsa.
  replace (skipn 41 (firstn 1 (upd e 0 (Z.lor 48 (Z.of_nat lg))) ++ salt ++ skipn (1 + 40) (upd e 0 (Z.lor 48 (Z.of_nat lg))))) with (skipn 41 e); [reflexivity|].
  destruct e as [|e0 e]; [cbn in Le; lia|]. cbn [upd firstn app Nat.add]. change (skipn 40 e = skipn 40 (salt ++ skipn 40 e)). rewrite skipn_app, (skipn_all2 salt) by lia. rewrite Lsa. reflexivity.
Qed.

(** sign ends with a body that passes the test t when the loop does *)
Lemma sign_bits t B T xof c t0 t1 msg salt skey sig w m k : (sig_bytes lg <= length sig)%nat -> length salt = 40%nat -> hash_to_point k xof lg salt msg (repeat 0%Z N) = Ok c ->
  decode_skey lg skey (repeat 0%Z N) (repeat 0%Z N) (repeat 0%Z N) = Ok (true, (f, g, F_)) ->
  compute_matrix_B RF exact_table lg f g F_ G_ = Ok B -> compute_falcon_tree RF exact_table lg B (fresh RF (N * (lg + 1))) = Ok T -> sign_target RF exact_table lg B c = Ok (t0, t1) ->
  match sign RF exact_table m k xof lg skey msg sig (stream (salt ++ w)) with Ok (true, e) => t (body_bits lg e) | _ => false end = ends_with (fun e => t (body_bits lg e)) (sign_loop RF exact_table m k lg B T t0 t1 sm (beta2 lg) (stream w) 0 sig).
Proof.
  intros Ls Lsa Hh HD HB HT Ht. assert (K' := K). destruct K' as (Lf & Lg & LF & LG & HN & HGS & Hsm & BF & BG & Sf & Sg & HI). assert (H1 : (1 <= lg <= 10)%nat) by (destruct Hlg as [->| ->]; lia).
  unfold sign. rewrite HD. cbn [bind negb].
  assert (RG : Forall (fun x => -2147483648 <= x <= 2147483647)%Z G_). { refine (Forall_impl _ _ BG). intros x Hx0. cbv beta in Hx0. lia. }
  rewrite (recompute_G_ok lg f g F_ G_ (repeat 0%Z N) (proj2 H1) Lf Lg LF LG (repeat_length _ _) HN RG); [|apply (invertible_nonzero lg f), (invertible_unit lg Hlg f Lf Sf HI)].
  cbn [bind]. rewrite HB. cbn [bind]. rewrite HT. cbn [bind].
  unfold sign_bt, rng_read. rewrite (stream_salt salt w Lsa), Hh. cbn [bind]. rewrite Ht. cbn [bind]. replace (beta2_values lg) with (beta2 lg) by (destruct Hlg as [->| ->]; reflexivity).
  cbn [Nat.add]. rewrite (run_lp RF exact_table lg B T t0 t1 sm (beta2 lg) k (stream w) m 0 sig).
  destruct (sign_loop RF exact_table m k lg B T t0 t1 sm (beta2 lg) (stream (salt ++ w)) 40 sig) as [[e p]| |] eqn:El; cbn [bind].
  all: assert (El' := El); rewrite run_lp in El'; rewrite (run_skip RF sm k _ (salt ++ w) 40) in El'; rewrite skipn_app, (skipn_all2 salt) in El' by lia; rewrite Lsa in El'; cbn [app Nat.sub skipn] in El'.
  all: destruct (@run RF sm _ k (stream w) (lp RF exact_table lg B T t0 t1 (beta2 lg) m sig) 0) as [[e' p']| |]; try discriminate; try reflexivity.
  assert (e' = e) by congruence. subst e'. cbn [ends_with].
  destruct (sign_loop_inv RF exact_table lg B T t0 t1 sm (beta2 lg) k _ Hlg m 40 sig e p Ls El) as (s2' & body & _ & Lb & _ & Ee).
  destruct (sig_dims lg Hlg) as (D1 & _). assert (Le : length e = length sig) by (rewrite Ee, !app_length, firstn_length, Lb, skipn_length; lia).
  rewrite wr_Ok by lia. cbn [bind]. rewrite wrs_ok; [|rewrite Lsa, upd_length; lia]. cbn [bind]. unfold body_bits. rewrite Lsa.
  replace (skipn 41 (firstn 1 (upd e 0 (Z.lor 48 (Z.of_nat lg))) ++ salt ++ skipn (1 + 40) (upd e 0 (Z.lor 48 (Z.of_nat lg))))) with (skipn 41 e); [reflexivity|].
  destruct e as [|e0 e]; [cbn in Le; lia|]. cbn [upd firstn app Nat.add]. change (skipn 40 e = skipn 40 (salt ++ skipn 40 e)). rewrite skipn_app, (skipn_all2 salt) by lia. rewrite Lsa. reflexivity.
Qed.

Lemma sign_law xof msg salt c skey sig : (forall a, byte_stream (xof a)) -> length salt = 40%nat -> hashed (xof (salt ++ msg)) lg c -> (sig_bytes lg <= length sig)%nat ->
  decode_skey lg skey (repeat 0%Z N) (repeat 0%Z N) (repeat 0%Z N) = Ok (true, (f, g, F_)) ->
  exists omega W WA k0, 0 < WA <= W /\ total (coset lg c h) (fun s => wt s) W /\ total (signable lg c h) (fun s => wt s) WA /\
  (forall s2, total (fun s1 => signable lg c h (s1, s2)) (fun s1 => wt (s1, s2)) (omega s2)) /\
  (forall k m n L, (k0 <= k)%nat -> (36 * k * N * m <= n)%nat -> NoDup L ->
    lsum (fun s2 => Rabs (prob n (fun w => signs lg (sign RF exact_table m k xof lg skey msg sig (stream (salt ++ w))) s2) - omega s2 / WA)) L
      <= 4 * (INR (2 * N) * (/ 2 ^ 34 + (11 / 12) ^ k)) / (WA / W) + (1 - WA / W + INR (2 * N) * (/ 2 ^ 34 + (11 / 12) ^ k)) ^ m).
Proof.
  intros Hx Lsa Hh Ls HD. assert (K' := K). destruct K' as (Lf & Lg & LF & LG & HN & HGS & Hsm & BF & BG & Sf & Sg & HI). assert (H1 : (1 <= lg <= 10)%nat) by (destruct Hlg as [->| ->]; lia).
  destruct (P_verifyx.hashed_facts _ _ _ Hh) as [Lc Hc]. destruct (P_verifyx.hashed_fuel xof lg salt msg c (Hx _) Hh) as [k0 Hk0].
  set (T0 := fresh RF (N * (lg + 1))). assert (LT : ((lg + 1) * N <= length T0)%nat). { unfold T0. change (fresh RF (N * (lg + 1))) with (repeat (c0 RF) (N * (lg + 1))). rewrite repeat_length. lia. }
  destruct (tree_ok lg f g F_ G_ T0 H1 Lf Lg LF LG HN LT) as [T [E _]].
  set (B := Bex lg f g F_ G_) in *. assert (HB : compute_matrix_B RF exact_table lg f g F_ G_ = Ok B) by (apply (matrix_B_ok lg (proj2 H1) f g F_ G_ Lf Lg LF LG)).
  assert (Ht := target_ok lg (proj2 H1) f g F_ G_ c Lc).
  set (t0 := ft (tp0 lg F_ c)) in *. set (t1 := ft (tp1 lg f c)) in *. fold B in Ht.
  destruct (loop_dist lg Hlg f g F_ G_ Lf Lg LF LG HN HGS Hsm BF BG Sf Sg HI h0 h Lh0 HK B T0 T LT HB E c t0 t1 Lc Hc Ht) as (om & W & WA & W0 & TW & TA & TO & TV).
  destruct (signable_ex c Lc Hc) as [s Hs].
  assert (WA0 : 0 < WA). { apply Rlt_le_trans with (wt s + 0); [rewrite Rplus_0_r; apply exp_pos|]. apply (total_le _ _ _ [s] TA); [constructor; [intros []|constructor]|constructor; [exact Hs|constructor]]. }
  exists om, W, WA, k0. split; [split; [exact WA0|]|]. { apply (total_ub _ _ _ _ TA). intros l Nl Dl. apply (total_le _ _ _ l TW Nl). eapply Forall_impl; [|exact Dl]. intros x Hx0. apply Hx0. }
  split; [exact TW|]. split; [exact TA|]. split; [exact TO|]. intros k m n L Hk Hn NL. eapply Rle_trans; [|exact (TV WA0 k m n sig L Ls Hn NL)]. right. apply lsum_ext. intros s2 _. f_equal. f_equal. apply prob_ext. intros w.
  rewrite <- (sign_bt_loop B T xof c t0 t1 msg salt sig w m k s2 Ls Lsa (Hk0 k _ Hk (repeat_length _ _)) Ht). unfold sign. rewrite HD. cbn [bind negb].
  assert (RG : Forall (fun x => -2147483648 <= x <= 2147483647)%Z G_). { refine (Forall_impl _ _ BG). intros x Hx0. cbv beta in Hx0. lia. }
  rewrite (recompute_G_ok lg f g F_ G_ (repeat 0%Z N) (proj2 H1) Lf Lg LF LG (repeat_length _ _) HN RG); [|apply (invertible_nonzero lg f), (invertible_unit lg Hlg f Lf Sf HI)].
  cbn [bind]. rewrite HB. cbn [bind]. fold T0. rewrite E. cbn [bind]. destruct (sign_bt RF exact_table m k xof lg B T msg sig (stream (salt ++ w)) 0) as [[e q]| |]; reflexivity.
Qed.
End Key.

(** ** two secret keys of one public key *)
Notation wt lg s := (exp (- (IZR (sqnorm (fst s) + sqnorm (snd s)) / (2 * (sigma_value RF lg * sigma_value RF lg))))).
Notation dev lg k := (INR (2 * 2 ^ lg) * (/ 2 ^ 34 + (11 / 12) ^ k)).
Lemma sign_key_free lg (Hlg : falcon_lg lg) f g F_ G_ f' g' F_' G_' h0 h0' h xof msg salt c skey skey' sig sig' :
  sound_key lg f g F_ G_ -> sound_key lg f' g' F_' G_' -> length h0 = (2 ^ lg)%nat -> length h0' = (2 ^ lg)%nat ->
  compute_public_key lg f g h0 = Ok h -> compute_public_key lg f' g' h0' = Ok h ->
  (forall a, byte_stream (xof a)) -> length salt = 40%nat -> hashed (xof (salt ++ msg)) lg c -> (sig_bytes lg <= length sig)%nat -> (sig_bytes lg <= length sig')%nat ->
  decode_skey lg skey (repeat 0%Z (2 ^ lg)) (repeat 0%Z (2 ^ lg)) (repeat 0%Z (2 ^ lg)) = Ok (true, (f, g, F_)) ->
  decode_skey lg skey' (repeat 0%Z (2 ^ lg)) (repeat 0%Z (2 ^ lg)) (repeat 0%Z (2 ^ lg)) = Ok (true, (f', g', F_')) ->
  exists W WA k0, 0 < WA <= W /\ total (coset lg c h) (fun s => wt lg s) W /\ total (signable lg c h) (fun s => wt lg s) WA /\
  (forall k m n L, (k0 <= k)%nat -> (36 * k * 2 ^ lg * m <= n)%nat -> NoDup L ->
    lsum (fun s2 => Rabs (prob n (fun w => signs lg (sign RF exact_table m k xof lg skey msg sig (stream (salt ++ w))) s2) -
                          prob n (fun w => signs lg (sign RF exact_table m k xof lg skey' msg sig' (stream (salt ++ w))) s2))) L
      <= 2 * (4 * dev lg k / (WA / W) + (1 - WA / W + dev lg k) ^ m)).
Proof.
  intros K K' Lh Lh' HK HK' Hx Lsa Hh Ls Ls' HD HD'.
  destruct (sign_law lg Hlg f g F_ G_ K h0 h Lh HK xof msg salt c skey sig Hx Lsa Hh Ls HD) as (om & W & WA & k0 & W0 & TW & TA & TO & TV).
  destruct (sign_law lg Hlg f' g' F_' G_' K' h0' h Lh' HK' xof msg salt c skey' sig' Hx Lsa Hh Ls' HD') as (om' & W' & WA' & k0' & _ & TW' & TA' & TO' & TV').
  rewrite <- (total_unique _ _ _ _ TW TW'), <- (total_unique _ _ _ _ TA TA') in TV'.
  exists W, WA, (Nat.max k0 k0'). split; [exact W0|]. split; [exact TW|]. split; [exact TA|]. intros k m n L Hk Hn NL.
  specialize (TV k m n L ltac:(lia) Hn NL). specialize (TV' k m n L ltac:(lia) Hn NL).
  match goal with |- _ <= 2 * ?b => apply Rle_trans with (b + b); [|lra] end.
  eapply Rle_trans; [|apply Rplus_le_compat; [exact TV|exact TV']]. rewrite <- lsum_plus. apply lsum_le. intros s _. rewrite <- (total_unique _ _ _ _ (TO s) (TO' s)).
  match goal with |- Rabs (?x - ?y) <= Rabs (?x - ?z) + Rabs _ => rewrite (Rabs_minus_sym y z); replace (x - y) with ((x - z) + (z - y)) by ring; apply Rabs_triang end.
Qed.

Import P_key P_verifyx.
Lemma k_signs : exists h skey, compute_public_key 9 kf kg (repeat 0%Z 512) = Ok h /\ bytes skey /\ decode_skey 9 skey (repeat 0%Z 512) (repeat 0%Z 512) (repeat 0%Z 512) = Ok (true, (kf, kg, kF)) /\
  sound_key 9 kf kg kF kG /\ (forall a, byte_stream (const_xof 7 a)) /\ hashed (const_xof 7 (repeat 9%Z 40 ++ [1; 2; 3]%Z)) 9 (repeat 7%Z 512).
Proof.
  assert (K := sound_k). destruct k_skey as (skey & _ & Bs & HD). assert (K' := K). destruct K' as (Lf & Lg & LF & LG & HN & HGS & Hsm & BF & BG & Sf & Sg & HI).
  destruct (P_nttx.public_key_spec 9 kf kg (repeat 0%Z 512) (or_introl eq_refl) Lf Lg (repeat_length _ _) Sf Sg HI) as (h & Eh & _).
  exists h, skey. split; [exact Eh|]. split; [exact Bs|]. split; [exact HD|]. split; [exact K|]. split; [intros a; apply const_xof_ok; lia|apply (const_hashed 7 _ 9); lia].
Qed.
