(** P_ver.v -- the share of the Gaussian vectors with a coefficient of 1024 or more. *)
From Verif Require Import Base Spec SpecR SpecS SpecG SpecJ M_float M_exact M_tree P_prob P_dist P_gsum P_jgauss P_jcoset P_tot P_theta P_wide P_loopk P_sim P_fit P_fitn P_fitm.
From Verif Require P_leaf.
From Coq Require Import Reals Lra FinFun.
Open Scope R_scope.

Lemma total_diff {X} (ex : forall x y : X, {x = y} + {x <> y}) (d : X -> Prop) (f g : X -> R) F G : (forall x, 0 <= f x <= g x) -> total d f F -> total d g G -> forall L, NoDup L -> Forall d L -> lsum (fun x => g x - f x) L <= G - F.
Proof.
  intros H TF TG L NL DL. enough (F <= G - lsum (fun x => g x - f x) L) by lra. apply (total_ub d f F _ TF). intros L' NL' DL'.
  set (U := nodup ex (L ++ L')). assert (NU : NoDup U) by apply NoDup_nodup. assert (DU : Forall d U). { rewrite Forall_forall in *. intros x Hx. apply nodup_In, in_app_iff in Hx. destruct Hx; [apply DL|apply DL']; assumption. }
  assert (A1 : lsum f L' <= lsum f U). { apply lsum_incl; [exact ex|intros; apply H|exact NL'|]. intros x Hx. left. apply nodup_In, in_app_iff. right. exact Hx. }
  assert (A2 : lsum (fun x => g x - f x) L <= lsum (fun x => g x - f x) U). { apply lsum_incl; [exact ex|intros x; specialize (H x); lra|exact NL|]. intros x Hx. left. apply nodup_In, in_app_iff. left. exact Hx. }
  assert (A3 := total_le d g G U TG NU DU).
  assert (A4 : lsum g U = lsum f U + lsum (fun x => g x - f x) U) by (rewrite <- lsum_plus; apply lsum_ext; intros; ring). lra.
Qed.

Section Tail.
Variables (k TH : R).
Hypothesis k0 : 0 < k.
Hypothesis HT : gtot (rho1 k) TH.
Lemma shift_sum M (V : list Z) (t : Z) : (0 <= M)%Z -> (t = 1 \/ t = -1)%Z -> NoDup V -> Forall (fun z => (M <= t * z)%Z) V -> lsum (rho1 k) V <= exp (- (k * IZR M ^ 2)) * TH.
Proof.
  intros HM Ht NV DV. apply Rle_trans with (lsum (fun z => exp (- (k * IZR M ^ 2)) * rho1 k (z - t * M)) V).
  - apply lsum_le_in. intros z Hz. rewrite Forall_forall in DV. specialize (DV z Hz). unfold rho1. rewrite <- exp_plus. apply exp_le.
    assert (B : IZR M ^ 2 + IZR (z - t * M) ^ 2 <= IZR z ^ 2).
    { replace (IZR M ^ 2 + IZR (z - t * M) ^ 2) with (IZR (M * M + (z - t * M) * (z - t * M))) by (rewrite plus_IZR, !mult_IZR; ring). replace (IZR z ^ 2) with (IZR (z * z)) by (rewrite mult_IZR; ring). apply IZR_le. destruct Ht as [-> | ->]; nia. }
    assert (C : k * (IZR M ^ 2 + IZR (z - t * M) ^ 2) <= k * IZR z ^ 2) by (apply Rmult_le_compat_l; lra). lra.
  - rewrite lsum_scl. apply Rmult_le_compat_l; [left; apply exp_pos|]. rewrite <- (lsum_map (rho1 k) (fun z => z - t * M)%Z). apply (tot_le _ _ _ HT). apply FinFun.Injective_map_NoDup; [intros a b; lia|exact NV].
Qed.
Lemma big_tail M V : (0 < M)%Z -> NoDup V -> Forall (fun z => (M <= Z.abs z)%Z) V -> lsum (rho1 k) V <= 2 * exp (- (k * IZR M ^ 2)) * TH.
Proof.
  intros HM NV DV. rewrite (lsum_part (Z.leb 0)). rewrite Forall_forall in DV.
  assert (A := shift_sum M (filter (Z.leb 0) V) 1 ltac:(lia) ltac:(left; reflexivity) (NoDup_filter _ NV)). assert (B := shift_sum M (filter (fun z => negb (Z.leb 0 z)) V) (-1) ltac:(lia) ltac:(right; reflexivity) (NoDup_filter _ NV)).
  assert (A' : lsum (rho1 k) (filter (Z.leb 0) V) <= exp (- (k * IZR M ^ 2)) * TH). { apply A. apply Forall_forall. intros z Hz. apply filter_In in Hz. destruct Hz as [Hz E]. apply Z.leb_le in E. specialize (DV z Hz). lia. }
  assert (B' : lsum (rho1 k) (filter (fun z => negb (Z.leb 0 z)) V) <= exp (- (k * IZR M ^ 2)) * TH). { apply B. apply Forall_forall. intros z Hz. apply filter_In in Hz. destruct Hz as [Hz E]. destruct (Z.leb_spec 0 z); [discriminate|]. specialize (DV z Hz). lia. }
  lra.
Qed.
End Tail.

(** ** vectors *)
Definition big (z : Z) : bool := (1024 <=? Z.abs z)%Z.
Definition bw (z : Z) : R := if big z then 2 else 1.
Lemma bw_1 z : 1 <= bw z.
Proof. unfold bw. destruct (big z); lra. Qed.
Lemma bw_prod k l : Rprod (map (fun z => bw z * rho1 k z) l) = Rprod (map bw l) * Rprod (map (rho1 k) l).
Proof. unfold Rprod. induction l as [|z l IH]; [cbn; lra|]. cbn [map fold_right]. rewrite IH. ring. Qed.
Lemma bw_ge l : 1 <= Rprod (map bw l) /\ (existsb big l = true -> 2 <= Rprod (map bw l)).
Proof.
  unfold Rprod. induction l as [|z l [IH1 IH2]]; [cbn; split; [lra|discriminate]|]. cbn [map fold_right existsb]. assert (B := bw_1 z). set (P := fold_right Rmult 1 (map bw l)) in *. split.
  - assert (1 * 1 <= bw z * P) by (apply Rmult_le_compat; lra). lra.
  - intros H. apply Bool.orb_true_iff in H. destruct H as [H|H].
    + assert (E : bw z = 2) by (unfold bw; rewrite H; reflexivity). rewrite E. lra.
    + specialize (IH2 H). assert (1 * 2 <= bw z * P) by (apply Rmult_le_compat; lra). lra.
Qed.
Lemma bern n x : 0 <= x -> (1 + x) ^ n * (1 - INR n * x) <= 1.
Proof.
  intros Hx. induction n as [|n IH]; [cbn; lra|]. rewrite S_INR. cbn [pow]. assert (P : 0 <= (1 + x) ^ n) by (apply pow_le; lra). assert (N0 := pos_INR n).
  eapply Rle_trans; [|exact IH]. replace ((1 + x) * (1 + x) ^ n * (1 - (INR n + 1) * x)) with ((1 + x) ^ n * ((1 + x) * (1 - (INR n + 1) * x))) by ring. apply Rmult_le_compat_l; [exact P|].
  assert (0 <= (INR n + 1) * (x * x)) by (apply Rmult_le_pos; [lra|apply Rmult_le_pos; lra]). replace ((1 + x) * (1 - (INR n + 1) * x)) with (1 - INR n * x - (INR n + 1) * (x * x)) by ring. lra.
Qed.

Section Share.
Variables (lg : nat) (eta share : R).
Notation k := (/ (2 * (sigma_value RF lg * sigma_value RF lg))).
Notation N := (2 ^ lg)%nat.
Notation PN := (fun s : list Z * list Z => length (fst s) = N /\ length (snd s) = N).
Hypothesis k0 : / (2 * (18205 / 10000) ^ 2) <= 4 ^ 8 * k.
Hypothesis k1 : 0 < k.
Hypothesis He : 2 * exp (- (k * IZR 1024 ^ 2)) <= eta.
Hypothesis Hs : INR (N + N) * eta <= share * (1 - INR (N + N) * eta) /\ INR (N + N) * eta < 1.
Lemma big_mass WT : total PN (fun s => wts lg s) WT ->
  forall L, NoDup L -> Forall (fun s => PN s /\ existsb big (fst s) || existsb big (snd s) = true) L -> lsum (fun s => wts lg s) L <= share * WT.
Proof.
  intros TW L NL DL. destruct (th_exn 8 k 0 k0) as [TH HT]. unfold th in HT.
  assert (HT1 : gtot (rho1 k) TH) by (eapply tot_ext; [|exact HT]; intros z; unfold rho1; cbv beta; rewrite Rminus_0_r; reflexivity).
  assert (e0 : 0 <= eta) by (assert (E := exp_pos (- (k * IZR 1024 ^ 2))); lra).
  assert (P1 : forall z, 0 <= rho1 k z) by (intros z; left; apply exp_pos). assert (TH0 := tot_pos _ _ HT1).
  assert (P2 : forall z, 0 <= bw z * rho1 k z) by (intros z; apply Rmult_le_pos; [assert (B := bw_1 z); lra|apply P1]).
  assert (MB : forall V, NoDup V -> lsum (fun z => bw z * rho1 k z) V <= (1 + eta) * TH).
  { intros V NV. rewrite (lsum_ext _ (fun z => rho1 k z + (if big z then rho1 k z else 0))) by (intros z _; unfold bw; destruct (big z); ring). rewrite lsum_plus.
    assert (A := tot_le _ _ _ HT1 NV). assert (B := big_tail k TH k1 HT1 1024 (filter big V) ltac:(lia) (NoDup_filter _ NV)).
    assert (E : lsum (fun z => if big z then rho1 k z else 0) V = lsum (rho1 k) (filter big V)). { clear. induction V as [|z V IH]; [reflexivity|]. unfold lsum in *. cbn [fold_right filter]. rewrite IH. destruct (big z); cbn [fold_right]; ring. }
    rewrite E. assert (B' : lsum (rho1 k) (filter big V) <= 2 * exp (- (k * IZR 1024 ^ 2)) * TH). { apply B. apply Forall_forall. intros z Hz. apply filter_In in Hz. destruct Hz as [_ Hz]. apply Z.leb_le in Hz. exact Hz. }
    assert (C : 2 * exp (- (k * IZR 1024 ^ 2)) * TH <= eta * TH) by (apply Rmult_le_compat_r; assumption). lra. }
  destruct (total_ex (fun _ : Z => True) (fun z => bw z * rho1 k z) ((1 + eta) * TH)) as [M HM1]; [intros l Nl _; apply MB; assumption|].
  assert (HM2 : gtot (fun z => bw z * rho1 k z) M).
  { split; [intros r (l & Nl & ->); apply (total_le _ _ _ l HM1 Nl); apply Forall_forall; intros; exact I|]. intros b Hb. apply (total_ub _ _ _ b HM1). intros l Nl _. apply Hb. exists l. auto. }
  assert (M0 := tot_pos _ _ HM2). assert (MB' : M <= (1 + eta) * TH) by (apply (tot_ub _ _ _ HM2); intros l Nl; apply MB; assumption).
  assert (T1 := total_len Z.eq_dec _ _ P1 HT1 N). assert (T2 := total_len Z.eq_dec _ _ P2 HM2 N).
  assert (A1 := total_prod (list_eq_dec Z.eq_dec) (list_eq_dec Z.eq_dec) _ _ _ _ _ _ (fun l => Rprod_map_pos _ l P1) (fun l => Rprod_map_pos _ l P1) T1 T1).
  assert (A2 := total_prod (list_eq_dec Z.eq_dec) (list_eq_dec Z.eq_dec) _ _ _ _ _ _ (fun l => Rprod_map_pos _ l P2) (fun l => Rprod_map_pos _ l P2) T2 T2).
  set (w1 := fun s : list Z * list Z => Rprod (map (rho1 k) (fst s)) * Rprod (map (rho1 k) (snd s))) in *. set (w2 := fun s : list Z * list Z => Rprod (map (fun z => bw z * rho1 k z) (fst s)) * Rprod (map (fun z => bw z * rho1 k z) (snd s))) in *.
  assert (EW : forall s, wts lg s = w1 s). { intros s. unfold w1. rewrite !rho_prod, <- exp_plus. f_equal. rewrite plus_IZR. unfold Rdiv. ring. }
  assert (W1 : forall s, 0 <= w1 s) by (intros s; rewrite <- EW; left; apply exp_pos).
  assert (E2 : forall s, w2 s = Rprod (map bw (fst s)) * Rprod (map bw (snd s)) * w1 s) by (intros s; unfold w2, w1; rewrite !bw_prod; ring).
  assert (W12 : forall s, 0 <= w1 s <= w2 s).
  { intros s. split; [apply W1|]. rewrite E2. rewrite <- (Rmult_1_l (w1 s)) at 1. apply Rmult_le_compat_r; [apply W1|]. destruct (bw_ge (fst s)) as [B1 _]. destruct (bw_ge (snd s)) as [B2 _]. assert (1 * 1 <= Rprod (map bw (fst s)) * Rprod (map bw (snd s))) by (apply Rmult_le_compat; lra). lra. }
  assert (EWT : WT = TH ^ N * TH ^ N). { refine (total_unique _ _ _ _ TW _). eapply total_ext_fun; [|exact A1]. intros s. symmetry. apply EW. }
  assert (TD := total_diff pair_dec PN w1 w2 _ _ W12 A1 A2 L NL). 
  apply Rle_trans with (lsum (fun s => w2 s - w1 s) L).
  { apply lsum_le_in. intros s Hs'. rewrite EW. rewrite Forall_forall in DL. destruct (DL s Hs') as [_ D]. rewrite E2. destruct (bw_ge (fst s)) as [B1 B1']. destruct (bw_ge (snd s)) as [B2 B2'].
    assert (G : 2 <= Rprod (map bw (fst s)) * Rprod (map bw (snd s))).
    { apply Bool.orb_true_iff in D. destruct D as [D|D]; [specialize (B1' D)|specialize (B2' D)]; [assert (2 * 1 <= Rprod (map bw (fst s)) * Rprod (map bw (snd s))) by (apply Rmult_le_compat; lra)|assert (1 * 2 <= Rprod (map bw (fst s)) * Rprod (map bw (snd s))) by (apply Rmult_le_compat; lra)]; lra. }
    assert (X : 2 * w1 s <= Rprod (map bw (fst s)) * Rprod (map bw (snd s)) * w1 s) by (apply Rmult_le_compat_r; [apply W1|exact G]). lra. }
  eapply Rle_trans; [apply TD; eapply Forall_impl; [|exact DL]; intros s H; apply H|]. rewrite EWT, <- !pow_add. set (n := (N + N)%nat) in *.
  assert (B1 : M ^ n <= (1 + eta) ^ n * TH ^ n) by (rewrite <- Rpow_mult_distr; apply pow_incr; split; assumption).
  assert (B2 := bern n eta e0). destruct Hs as [Hs1 Hs2]. assert (TN : 0 <= TH ^ n) by (apply pow_le; exact TH0). set (y := INR n * eta) in *.
  assert (B3 : (1 + eta) ^ n <= 1 + share).
  { apply (Rmult_le_reg_r (1 - y)); [lra|]. eapply Rle_trans; [exact B2|]. lra. }
  assert (B4 : (1 + eta) ^ n * TH ^ n <= (1 + share) * TH ^ n) by (apply Rmult_le_compat_r; assumption). lra.
Qed.
End Share.
Definition bigs (lg : nat) : R := if Nat.eqb lg 9 then 1 / 50000 else 1 / 20000.
Lemma exp_256 y b : exp (- y) <= b -> b ^ 256 <= b ^ 256 -> exp (- (256 * y)) <= b ^ 256.
Proof.
  intros H _. replace (- (256 * y)) with (- (y * INR 256)) by (replace (INR 256) with 256 by (simpl; lra); ring). rewrite <- exp_pow. apply pow_incr. split; [left; apply exp_pos|exact H].
Qed.
Lemma pow_256 b b1 b2 b3 b4 : 0 <= b -> b ^ 4 <= b1 -> b1 ^ 4 <= b2 -> b2 ^ 4 <= b3 -> b3 ^ 4 <= b4 -> b ^ 256 <= b4.
Proof.
  intros H H1 H2 H3 H4. change 256%nat with (4 * (4 * (4 * 4)))%nat. rewrite !(pow_mult _ 4).
  assert (P1 : 0 <= b ^ 4) by (apply pow_le; lra). assert (P2 : 0 <= (b ^ 4) ^ 4 <= b2) by (split; [apply pow_le; exact P1|]; eapply Rle_trans; [apply pow_incr; split; [exact P1|exact H1]|exact H2]).
  assert (P3 : 0 <= ((b ^ 4) ^ 4) ^ 4 <= b3) by (split; [apply pow_le; apply P2|]; eapply Rle_trans; [apply pow_incr; exact P2|exact H3]). eapply Rle_trans; [apply pow_incr; exact P3|exact H4].
Qed.
Lemma big_9 : 2 * exp (- (/ (2 * (sigma_value RF 9 * sigma_value RF 9)) * IZR 1024 ^ 2)) <= 2 * (2569 / 500000000000).
Proof.
  set (k := / (2 * (sigma_value RF 9 * sigma_value RF 9))). assert (Ek : k = / (2 * ((165736617183 / 1000000000) * (165736617183 / 1000000000)))) by (unfold k; rewrite P_leaf.sigma_9; reflexivity).
  assert (K1 : 2275323 / 125000000000 <= k <= 3640517 / 200000000000). { rewrite Ek. lra. }
  clearbody k. clear Ek. destruct (exp_between (4096 * k) (745577 / 10000000) (372789 / 5000000) (46407691 / 50000000) (46407697 / 50000000)) as [_ U]; [lra|lra|lra|lra|].
  replace (k * IZR 1024 ^ 2) with (256 * (4096 * k)) by lra. apply Rmult_le_compat_l; [lra|]. eapply Rle_trans; [apply (exp_256 _ _ U (Rle_refl _))|].
  apply (pow_256 _ (742130107 / 1000000000) (303333379 / 1000000000) (169321 / 20000000)); lra.
Qed.
Lemma big_10 : 2 * exp (- (/ (2 * (sigma_value RF 10 * sigma_value RF 10)) * IZR 1024 ^ 2)) <= 2 * (583 / 62500000000).
Proof.
  set (k := / (2 * (sigma_value RF 10 * sigma_value RF 10))). assert (Ek : k = / (2 * ((168388571447 / 1000000000) * (168388571447 / 1000000000)))) by (unfold k; rewrite P_leaf.sigma_10; reflexivity).
  assert (K1 : 8816877 / 500000000000 <= k <= 3526751 / 200000000000). { rewrite Ek. lra. }
  clearbody k. clear Ek. destruct (exp_between (4096 * k) (361139 / 5000000) (722279 / 10000000) (18606377 / 20000000) (93031897 / 100000000)) as [_ U]; [lra|lra|lra|lra|].
  replace (k * IZR 1024 ^ 2) with (256 * (4096 * k)) by lra. apply Rmult_le_compat_l; [lra|]. eapply Rle_trans; [apply (exp_256 _ _ U (Rle_refl _))|].
  apply (pow_256 _ (374539401 / 500000000) (314854591 / 1000000000) (4913717 / 500000000)); lra.
Qed.
Lemma bigs_mass lg : falcon_lg lg -> forall WT, total (fun s : list Z * list Z => length (fst s) = (2 ^ lg)%nat /\ length (snd s) = (2 ^ lg)%nat) (fun s => wts lg s) WT ->
  forall L, NoDup L -> Forall (fun s => (length (fst s) = (2 ^ lg)%nat /\ length (snd s) = (2 ^ lg)%nat) /\ existsb big (fst s) || existsb big (snd s) = true) L -> lsum (fun s => wts lg s) L <= bigs lg * WT.
Proof.
  intros Hlg. destruct Hlg as [-> | ->].
  - apply (big_mass 9 (2 * (2569 / 500000000000)) (1 / 50000)); [rewrite P_leaf.sigma_9; lra|rewrite P_leaf.sigma_9; lra|exact big_9|]. replace (INR (2 ^ 9 + 2 ^ 9)) with 1024 by (rewrite INR_IZR_INZ; reflexivity). lra.
  - apply (big_mass 10 (2 * (583 / 62500000000)) (1 / 20000)); [rewrite P_leaf.sigma_10; lra|rewrite P_leaf.sigma_10; lra|exact big_10|]. replace (INR (2 ^ 10 + 2 ^ 10)) with 2048 by (rewrite INR_IZR_INZ; reflexivity). lra.
Qed.
