(** P_jgauss.v -- the product of discrete Gaussians of C71 is close to the discrete Gaussian on the lattice. *)
From Verif Require Import Base Spec SpecR SpecS SpecG SpecJ M_ff M_sig M_verify M_float M_exact M_samp M_fft M_ntru M_tree P_exact P_fft P_treex P_gs P_leaf P_sign P_signx P_norm P_normx P_dist P_joint P_gsum P_jprob P_tot P_theta P_jfin P_jkey P_normx.
From Coq Require Import Lra.
Open Scope R_scope.

Section Total.
Context {X : Type}.
Variable dom : X -> Prop.
Lemma total_le (f : X -> R) F l : total dom f F -> NoDup l -> Forall dom l -> lsum f l <= F.
Proof. intros [U _] N D. apply U. exists l. split; [exact N|]. split; [exact D|reflexivity]. Qed.
Lemma total_ub (f : X -> R) F b : total dom f F -> (forall l, NoDup l -> Forall dom l -> lsum f l <= b) -> F <= b.
Proof. intros [_ L] H. apply L. intros x (l & N & D & ->). apply H; assumption. Qed.
Lemma total_unique (f : X -> R) F G : total dom f F -> total dom f G -> F = G.
Proof. intros A B. apply Rle_antisym; [apply (total_ub f F); [exact A|]|apply (total_ub f G); [exact B|]]; intros; apply total_le; assumption. Qed.
Lemma total_ex (f : X -> R) b : (forall l, NoDup l -> Forall dom l -> lsum f l <= b) -> exists F, total dom f F.
Proof.
  intros H. destruct (completeness (fun x => exists l, NoDup l /\ Forall dom l /\ x = fold_right (fun a r => f a + r) 0 l)) as [m Hm].
  - exists b. intros x (l & N & D & ->). apply H; assumption.
  - exists 0, []. split; [constructor|]. split; [constructor|reflexivity].
  - exists m. exact Hm.
Qed.
Lemma lsum_le_in (f g : X -> R) l : (forall x, In x l -> f x <= g x) -> lsum f l <= lsum g l.
Proof. intros H. induction l as [|x l IH]; unfold lsum in *; cbn [fold_right]; [lra|]. apply Rplus_le_compat; [apply H; left; reflexivity|apply IH; intros y Hy; apply H; right; exact Hy]. Qed.
Lemma lsum_scl (f : X -> R) k l : lsum (fun x => k * f x) l = k * lsum f l.
Proof. induction l as [|x l IH]; unfold lsum in *; cbn [fold_right]; [ring|rewrite IH; ring]. Qed.

Variables (I W P : X -> R) (r : R).
Hypothesis HI : total dom I 1.
Hypothesis HW : forall a, dom a -> 0 < W a.
Hypothesis HP : forall a, dom a -> 0 < P a /\ I a = W a / P a.
Hypothesis Hr : 1 <= r.
Hypothesis HPP : forall a b, dom a -> dom b -> P a <= r * P b.
Hypothesis a0 : X.
Hypothesis Ha0 : dom a0.
Lemma I_pos a : dom a -> 0 <= I a.
Proof. intros D. destruct (HP a D) as [P0 ->]. left. apply Rdiv_lt_0_compat; [apply HW; exact D|exact P0]. Qed.
Lemma W_I a : dom a -> W a = P a * I a.
Proof. intros D. destruct (HP a D) as [P0 ->]. field. lra. Qed.
Lemma one_total : exists Z, 0 < Z /\ total dom W Z /\ (forall a, dom a -> P a <= r * Z /\ Z <= r * P a) /\
  forall L, NoDup L -> Forall dom L -> lsum (fun a => Rabs (I a - W a / Z)) L <= r - 1.
Proof.
  assert (B : forall a l, dom a -> NoDup l -> Forall dom l -> lsum W l <= r * P a).
  { intros a l Da N D. apply Rle_trans with (r * P a * lsum I l).
    - rewrite <- lsum_scl. apply lsum_le_in. intros x Hx. rewrite Forall_forall in D. specialize (D x Hx). rewrite (W_I x D). apply Rmult_le_compat_r; [apply I_pos; exact D|apply HPP; assumption].
    - rewrite <- (Rmult_1_r (r * P a)) at 2. apply Rmult_le_compat_l; [apply Rmult_le_pos; [lra|left; apply HP; exact Da]|]. apply (total_le I); assumption. }
  destruct (total_ex W (r * P a0)) as [Z TZ]; [intros l N D; apply B; assumption|].
  assert (A1 : forall a, dom a -> P a <= r * Z).
  { intros a Da. destruct (HP a Da) as [P0 _]. assert (1 <= r * Z / P a) as H.
    - apply (total_ub I 1 _ HI). intros l N D. apply Rmult_le_reg_l with (P a); [exact P0|]. replace (P a * (r * Z / P a)) with (r * Z) by (field; lra).
      apply Rle_trans with (r * lsum W l); [|apply Rmult_le_compat_l; [lra|apply (total_le W); assumption]]. rewrite <- !lsum_scl. apply lsum_le_in. intros x Hx. rewrite Forall_forall in D. specialize (D x Hx).
      rewrite (W_I x D), <- Rmult_assoc. apply Rmult_le_compat_r; [apply I_pos; exact D|apply HPP; assumption].
    - apply Rmult_le_reg_l with (/ P a); [apply Rinv_0_lt_compat; exact P0|]. rewrite Rinv_l by lra. replace (/ P a * (r * Z)) with (r * Z / P a) by (unfold Rdiv; ring). exact H. }
  assert (A2 : forall a, dom a -> Z <= r * P a) by (intros a Da; apply (total_ub W Z); [exact TZ|]; intros l N D; apply B; assumption).
  assert (Z0 : 0 < Z). { apply Rlt_le_trans with (W a0); [apply HW; exact Ha0|]. replace (W a0) with (lsum W [a0]) by (unfold lsum; cbn; ring). apply (total_le W); [exact TZ|constructor; [intros []|constructor]|constructor; [exact Ha0|constructor]]. }
  exists Z. split; [exact Z0|]. split; [exact TZ|]. split; [intros a Da; split; [apply A1|apply A2]; exact Da|].
  intros L N D. apply Rle_trans with ((r - 1) * lsum I L).
  - rewrite <- lsum_scl. apply lsum_le_in. intros x Hx. rewrite Forall_forall in D. specialize (D x Hx). assert (X0 := I_pos x D). rewrite (W_I x D).
    replace (I x - P x * I x / Z) with (I x * (1 - P x / Z)) by (field; lra). rewrite Rabs_mult, (Rabs_pos_eq (I x)) by exact X0. rewrite (Rmult_comm (r - 1)). apply Rmult_le_compat_l; [exact X0|].
    assert (U : P x / Z <= r) by (apply Rmult_le_reg_r with Z; [exact Z0|]; replace (P x / Z * Z) with (P x) by (field; lra); apply A1; exact D).
    assert (V : / r <= P x / Z). { apply Rmult_le_reg_r with (r * Z); [apply Rmult_lt_0_compat; lra|]. replace (/ r * (r * Z)) with Z by (field; lra). replace (P x / Z * (r * Z)) with (r * P x) by (field; lra). apply A2; exact D. }
    assert (1 - (r - 1) <= / r). { apply Rmult_le_reg_r with r; [lra|]. rewrite Rinv_l by lra. assert (Q := Rle_0_sqr (r - 1)). unfold Rsqr in Q. lra. }
    apply Rabs_le. lra.
  - rewrite <- (Rmult_1_r (r - 1)) at 2. apply Rmult_le_compat_l; [lra|]. apply (total_le I); assumption.
Qed.
End Total.

Lemma inv2_S n : / 2 ^ n = 2 * / 2 ^ S n.
Proof. cbn [pow]. rewrite Rinv_mult, <- Rmult_assoc, Rinv_r, Rmult_1_l by lra. reflexivity. Qed.
Lemma inv2_le n m : (n <= m)%nat -> 0 < / 2 ^ m <= / 2 ^ n.
Proof. intros H. split; [apply Rinv_0_lt_compat, pow_lt; lra|]. apply Rinv_le_contravar; [apply pow_lt; lra|apply Rle_pow; [lra|exact H]]. Qed.
(** ** the products of the sums of weights barely depend on the centres *)
Lemma prod_free : forall (cs cs' : list call) Gs Gs', map stddev cs = map stddev cs' -> Forall (fun k => 12778 / 10000 <= stddev k <= 18205 / 10000) cs ->
  Forall2 (fun k G => gauss_sum (stddev k) (centre k) G) cs Gs -> Forall2 (fun k G => gauss_sum (stddev k) (centre k) G) cs' Gs' ->
  0 < Rprod Gs /\ 0 < Rprod Gs' /\ Rprod Gs * (1 - / 2 ^ 37) ^ length cs <= Rprod Gs'.
Proof.
  assert (B := inv2_le 3 38 ltac:(lia)). replace (/ 2 ^ 3) with (1 / 8) in B by lra.
  assert (E37 := inv2_S 37).
  induction cs as [|k cs IH]; intros [|k' cs'] Gs Gs' Es F H H'; try discriminate.
  - inversion H; subst. inversion H'; subst. cbn. lra.
  - inversion H as [|? G ? Gr Hk Hr]. subst. inversion H' as [|? G' ? Gr' Hk' Hr']. subst. inversion F as [|? ? Fk Fr]. subst. cbn [map] in Es. injection Es as E1 E2.
    destruct (IH cs' Gr Gr' E2 Fr Hr Hr') as (P1 & P2 & P3). unfold Rprod in *. cbn [fold_right length]. rewrite <- tech_pow_Rmult.
    assert (G0 : 0 < G) by (apply (th_pos (/ (2 * stddev k ^ 2)) (centre k)), th_gauss; [lra|exact Hk]). rewrite <- E1 in Hk'. assert (G0' : 0 < G') by (apply (th_pos (/ (2 * stddev k ^ 2)) (centre k')), th_gauss; [lra|exact Hk']).
    split; [apply Rmult_lt_0_compat; assumption|]. split; [apply Rmult_lt_0_compat; assumption|].
    assert (C := centre_free _ _ _ _ _ Fk Hk Hk'). 
    assert (D : G * (1 - / 2 ^ 37) <= G').
    { rewrite E37. apply Rmult_le_reg_r with (1 + / 2 ^ 38); [lra|]. eapply Rle_trans; [|exact C]. rewrite Rmult_assoc. apply Rmult_le_compat_l; [lra|]. assert (0 <= / 2 ^ 38 * / 2 ^ 38) by (apply Rmult_le_pos; lra). lra. }
    set (pG := fold_right Rmult 1 Gr) in *. set (pG' := fold_right Rmult 1 Gr') in *. set (e := (1 - / 2 ^ 37) ^ length cs) in *.
    replace (G * pG * ((1 - / 2 ^ 37) * e)) with (G * (1 - / 2 ^ 37) * (pG * e)) by ring. apply Rmult_le_compat; [|apply Rmult_le_pos; [lra|apply pow_le; lra]|exact D|exact P3]. apply Rmult_le_pos; lra.
Qed.
Lemma inv_bern n x : 0 <= x <= 1 -> INR n * x <= 1 / 2 -> 1 <= (1 + 2 * (INR n * x)) * (1 - x) ^ n.
Proof.
  intros Hx Hn. assert (B := bernoulli x n Hx). assert (0 <= INR n * x) by (apply Rmult_le_pos; [apply pos_INR|lra]). set (y := INR n * x) in *.
  apply Rle_trans with ((1 + 2 * y) * (1 - y)); [|apply Rmult_le_compat_l; lra]. assert (0 <= y * (1 - 2 * y)) by (apply Rmult_le_pos; lra). lra.
Qed.
Lemma prod_ratio n (cs cs' : list call) Gs Gs' : length cs = n -> (n <= 2048)%nat -> map stddev cs = map stddev cs' -> Forall (fun k => 12778 / 10000 <= stddev k <= 18205 / 10000) cs ->
  Forall2 (fun k G => gauss_sum (stddev k) (centre k) G) cs Gs -> Forall2 (fun k G => gauss_sum (stddev k) (centre k) G) cs' Gs' ->
  0 < Rprod Gs /\ Rprod Gs <= (1 + INR n * / 2 ^ 36) * Rprod Gs'.
Proof.
  intros Ln Hn Es F H H'. destruct (prod_free cs cs' Gs Gs' Es F H H') as (P1 & P2 & P3). split; [exact P1|]. rewrite Ln in P3.
  assert (E36 := inv2_S 36).
  assert (B := inv2_le 12 37 ltac:(lia)).
  assert (E12 : / 2 ^ 12 = / 4096) by (f_equal; lra).
  assert (Nn : INR n <= 2048) by (rewrite INR_IZR_INZ; apply (IZR_le _ 2048); lia).
  assert (0 <= INR n) by apply pos_INR.
  assert (Y : INR n * / 2 ^ 37 <= 1 / 2). { apply Rle_trans with (2048 * / 4096); [apply Rmult_le_compat; lra|lra]. }
  assert (Q := inv_bern n (/ 2 ^ 37) ltac:(lra) Y). rewrite E36.
  apply Rle_trans with (Rprod Gs * ((1 + 2 * (INR n * / 2 ^ 37)) * (1 - / 2 ^ 37) ^ n)); [rewrite <- (Rmult_1_r (Rprod Gs)) at 1; apply Rmult_le_compat_l; lra|].
  replace (Rprod Gs * ((1 + 2 * (INR n * / 2 ^ 37)) * (1 - / 2 ^ 37) ^ n)) with ((1 + INR n * (2 * / 2 ^ 37)) * (Rprod Gs * (1 - / 2 ^ 37) ^ n)) by ring.
  apply Rmult_le_compat_l; [|exact P3]. assert (0 <= INR n * / 2 ^ 37) by (apply Rmult_le_pos; lra). lra.
Qed.

Section Key.
Variable lg : nat.
Hypothesis Hlg : falcon_lg lg.
Notation N := (2 ^ lg)%nat.
Variables f g F_ G_ : list Z.
Hypotheses (Lf : length f = N) (Lg : length g = N) (LF : length F_ = N) (LG : length G_ = N).
Hypothesis HN : ntru N f g F_ G_.
Hypothesis HGS : gs_norm lg f g <= 117 / 100 * (117 / 100) * 12289.
Hypothesis Hsm : lg = 10%nat \/ sigma_min RF lg * sigma_min RF lg * gs_norm lg f g <= sigma_value RF lg * sigma_value RF lg.
Hypotheses (BF : Forall (fun x => Z.abs x <= 27000)%Z F_) (BG : Forall (fun x => Z.abs x <= 27000)%Z G_).
Variables B T0 T : list (D RF * D RF).
Hypothesis LT0 : ((lg + 1) * N <= length T0)%nat.
Hypothesis HB : compute_matrix_B RF exact_table lg f g F_ G_ = Ok B.
Hypothesis HT : compute_falcon_tree RF exact_table lg B T0 = Ok T.
Notation norm2 c a := (IZR (sqnorm (psub N (psub N c (negacyclic N (fst a) g)) (negacyclic N (snd a) G_)) + sqnorm (padd N (negacyclic N (fst a) f) (negacyclic N (snd a) F_)))).
Notation wt c a := (exp (- (norm2 c a / (2 * (sigma_value RF lg * sigma_value RF lg))))).
Notation pairN := (fun a : list Z * list Z => length (fst a) = N /\ length (snd a) = N).

Lemma smin_12 : 12778 / 10000 <= sigma_min RF lg.
Proof. destruct Hlg as [-> | ->]; unfold sigma_min, flit; cbn; lra. Qed.
Lemma n_2048 : (2 * N <= 2048)%nat.
Proof. destruct Hlg as [-> | ->]; apply Nat.leb_le; vm_compute; reflexivity. Qed.

(** what C71 gives for one message, with the products of sums made explicit *)
Lemma gauss_msg c t0 t1 : length c = N -> Forall canon c -> sign_target RF exact_table lg B c = Ok (t0, t1) ->
  exists (P : list Z * list Z -> R) (cs : list call) Gs Z, length cs = (2 * N)%nat /\ map stddev cs = leaf_twice lg T /\
    Forall (fun k => 12778 / 10000 <= stddev k <= 18205 / 10000) cs /\ Forall2 (fun k G => gauss_sum (stddev k) (centre k) G) cs Gs /\
    0 < Z /\ total pairN (fun a => wt c a) Z /\ Rprod Gs <= (1 + INR (2 * N) * / 2 ^ 36) * Z /\ Z <= (1 + INR (2 * N) * / 2 ^ 36) * Rprod Gs /\
    forall k n L, (36 * k * N <= n)%nat -> NoDup L -> Forall pairN L ->
      lsum (fun a => Rabs (prob n (fun w => samples lg (ff_sampling RF exact_table k lg 0 t0 t1 T 0 (sigma_min RF lg) (stream w) 0) a) - wt c a / Z)) L
        <= INR (2 * N) * (/ 2 ^ 34 + (11 / 12) ^ k).
Proof.
  intros Lc Hc Ht. destruct (joint_run lg Hlg f g F_ G_ Lf Lg LF LG HN HGS Hsm BF BG c B T0 T t0 t1 Lc Hc LT0 HB HT Ht) as (I & HI & TI & TV & _).
  assert (S := smin_12). assert (N2 := n_2048). set (r := 1 + INR (2 * N) * / 2 ^ 36).
  assert (Hr : 1 <= r) by (unfold r; assert (0 <= INR (2 * N) * / 2 ^ 36) by (apply Rmult_le_pos; [apply pos_INR|left; apply Rinv_0_lt_compat, pow_lt; lra]); lra).
  assert (D0 : pairN (repeat 0%Z N, repeat 0%Z N)) by (split; apply repeat_length).
  assert (HI' : forall a, pairN a -> exists (cs : list call) Gs, length cs = (2 * N)%nat /\ map stddev cs = leaf_twice lg T /\ Forall (fun k => 12778 / 10000 <= stddev k <= 18205 / 10000) cs /\
    Forall2 (fun k G => gauss_sum (stddev k) (centre k) G) cs Gs /\ I a = wt c a / Rprod Gs).
  { intros a [A1 A2]. destruct (HI a A1 A2) as (cs & Gs & H1 & H2 & H3 & H4 & H5). exists cs, Gs. split; [exact H1|]. split; [exact H2|]. split; [|split; [exact H4|exact H5]]. eapply Forall_impl; [|exact H3]. cbv beta. intros k Hk. lra. }
  clear HI. set (P := fun a => wt c a / I a).
  assert (HP : forall a cs Gs, pairN a -> length cs = (2 * N)%nat -> map stddev cs = leaf_twice lg T -> Forall (fun k => 12778 / 10000 <= stddev k <= 18205 / 10000) cs ->
    Forall2 (fun k G => gauss_sum (stddev k) (centre k) G) cs Gs -> I a = wt c a / Rprod Gs -> 0 < Rprod Gs /\ P a = Rprod Gs).
  { intros a cs Gs Da H1 H2 H3 H4 H5. destruct (prod_free cs cs Gs Gs eq_refl H3 H4 H4) as (P1 & _). split; [exact P1|]. unfold P. rewrite H5. assert (W0 := exp_pos (- (norm2 c a / (2 * (sigma_value RF lg * sigma_value RF lg))))). field. split; lra. }
  destruct (one_total pairN I (fun a => wt c a) P r TI) with (a0 := (repeat 0%Z N, repeat 0%Z N)) as (Z & Z0 & TZ & PZ & DZ).
  - intros a _. apply exp_pos.
  - intros a Da. destruct (HI' a Da) as (cs & Gs & H1 & H2 & H3 & H4 & H5). destruct (HP a cs Gs Da H1 H2 H3 H4 H5) as [P1 ->]. split; [exact P1|exact H5].
  - exact Hr.
  - intros a b Da Db. destruct (HI' a Da) as (cs & Gs & H1 & H2 & H3 & H4 & H5). destruct (HP a cs Gs Da H1 H2 H3 H4 H5) as [P1 ->].
    destruct (HI' b Db) as (cs' & Gs' & H1' & H2' & H3' & H4' & H5'). destruct (HP b cs' Gs' Db H1' H2' H3' H4' H5') as [P1' ->].
    apply (prod_ratio (2 * N) cs cs' Gs Gs' H1 N2); try assumption. etransitivity; [exact H2|symmetry; exact H2'].
  - exact D0.
  - destruct (HI' _ D0) as (cs & Gs & H1 & H2 & H3 & H4 & H5). destruct (HP _ cs Gs D0 H1 H2 H3 H4 H5) as [P1 EP]. destruct (PZ _ D0) as [PZ1 PZ2]. rewrite EP in PZ1, PZ2.
    exists P, cs, Gs, Z. do 6 (split; [assumption|]). split; [exact PZ1|]. split; [exact PZ2|].
    intros k n L Hn NL DL. apply Rle_trans with (lsum (fun a => Rabs (prob n (fun w => samples lg (ff_sampling RF exact_table k lg 0 t0 t1 T 0 (sigma_min RF lg) (stream w) 0) a) - I a) + Rabs (I a - wt c a / Z)) L).
    + apply lsum_le. intros a _. eapply Rle_trans; [|apply Rabs_triang]. right. f_equal. ring.
    + rewrite lsum_plus. eapply Rle_trans; [apply Rplus_le_compat; [apply (TV k n L Hn NL DL)|apply (DZ L NL DL)]|]. unfold r.
      assert (E1 := inv2_S 34).
      assert (E2 := inv2_S 35). rewrite E1, E2.
      assert (0 <= INR (2 * N) * / 2 ^ 36) by (apply Rmult_le_pos; [apply pos_INR|left; apply Rinv_0_lt_compat, pow_lt; lra]). lra.
Qed.
Lemma lattice_gauss c t0 t1 : length c = N -> Forall canon c -> sign_target RF exact_table lg B c = Ok (t0, t1) ->
  exists Z, 0 < Z /\ total pairN (fun a => wt c a) Z /\
    forall k n L, (36 * k * N <= n)%nat -> NoDup L -> Forall pairN L ->
      lsum (fun a => Rabs (prob n (fun w => samples lg (ff_sampling RF exact_table k lg 0 t0 t1 T 0 (sigma_min RF lg) (stream w) 0) a) - wt c a / Z)) L
        <= INR (2 * N) * (/ 2 ^ 34 + (11 / 12) ^ k).
Proof. intros Lc Hc Ht. destruct (gauss_msg c t0 t1 Lc Hc Ht) as (P & cs & Gs & Z & H1 & H2 & H3 & H4 & H5 & H6 & _ & _ & H7). exists Z. split; [exact H5|]. split; [exact H6|exact H7]. Qed.
Lemma cube r x : 0 <= x <= / 2 ^ 20 -> r = 1 + x -> r * (r * r) <= 1 + 4 * x.
Proof. intros Hx ->. assert (/ 2 ^ 20 <= 1 / 8) by (apply Rle_trans with (/ 2 ^ 3); [apply Rinv_le_contravar; [apply pow_lt; lra|apply Rle_pow; [lra|lia]]|lra]). assert (0 <= x * (1 / 8 - x)) by (apply Rmult_le_pos; lra). assert (0 <= x * x * (1 / 8 - x)) by (apply Rmult_le_pos; [apply Rmult_le_pos|]; lra). lra. Qed.
(** the sum of the weights barely depends on the message *)
Lemma mass_free c c' t0 t1 t0' t1' Z Z' : length c = N -> Forall canon c -> length c' = N -> Forall canon c' ->
  sign_target RF exact_table lg B c = Ok (t0, t1) -> sign_target RF exact_table lg B c' = Ok (t0', t1') ->
  total pairN (fun a => wt c a) Z -> total pairN (fun a => wt c' a) Z' -> Z <= Z' * (1 + INR (2 * N) * / 2 ^ 34).
Proof.
  intros Lc Hc Lc' Hc' Ht Ht' HZ HZ'. destruct (gauss_msg c t0 t1 Lc Hc Ht) as (P & cs & Gs & Y & H1 & H2 & H3 & H4 & H5 & H6 & H7 & H8 & _).
  destruct (gauss_msg c' t0' t1' Lc' Hc' Ht') as (P' & cs' & Gs' & Y' & H1' & H2' & H3' & H4' & H5' & H6' & H7' & H8' & _).
  rewrite (total_unique _ _ _ _ HZ H6), (total_unique _ _ _ _ HZ' H6').
  destruct (prod_ratio (2 * N) cs cs' Gs Gs' H1 n_2048 ltac:(etransitivity; [exact H2|symmetry; exact H2']) H3 H4 H4') as [Q0 Q].
  set (x := INR (2 * N) * / 2 ^ 36) in *.
  assert (X : 0 <= x <= / 2 ^ 20).
  { unfold x. assert (0 < / 2 ^ 36) by (apply Rinv_0_lt_compat, pow_lt; lra). split; [apply Rmult_le_pos; [apply pos_INR|lra]|]. assert (A := n_2048). apply (le_INR _ 2048) in A.
    replace (/ 2 ^ 20) with (2 ^ 16 * / 2 ^ 36) by (change 36%nat with (16 + 20)%nat; rewrite pow_add, Rinv_mult, <- Rmult_assoc, Rinv_r, Rmult_1_l by (apply pow_nonzero; lra); reflexivity). apply Rmult_le_compat_r; [lra|]. eapply Rle_trans; [exact A|]. rewrite INR_IZR_INZ. change (Z.of_nat 2048) with 2048%Z. lra. }
  assert (C := cube (1 + x) x X eq_refl).
  replace (INR (2 * N) * / 2 ^ 34) with (4 * x) by (unfold x; rewrite (inv2_S 34), (inv2_S 35); ring).
  apply Rle_trans with (Y' * ((1 + x) * ((1 + x) * (1 + x)))); [|apply Rmult_le_compat_l; lra].
  eapply Rle_trans; [exact H8|]. eapply Rle_trans; [apply Rmult_le_compat_l; [lra|exact Q]|]. rewrite <- Rmult_assoc. eapply Rle_trans; [apply Rmult_le_compat_l; [apply Rmult_le_pos; lra|exact H7']|]. right. ring.
Qed.
End Key.
Lemma mass_any lg (Hlg : falcon_lg lg) (f g F_ G_ : list Z) : length f = (2 ^ lg)%nat -> length g = (2 ^ lg)%nat -> length F_ = (2 ^ lg)%nat -> length G_ = (2 ^ lg)%nat -> ntru (2 ^ lg) f g F_ G_ ->
  gs_norm lg f g <= 117 / 100 * (117 / 100) * 12289 ->
  lg = 10%nat \/ sigma_min RF lg * sigma_min RF lg * gs_norm lg f g <= sigma_value RF lg * sigma_value RF lg ->
  Forall (fun x => Z.abs x <= 27000)%Z F_ -> Forall (fun x => Z.abs x <= 27000)%Z G_ ->
  forall c c' W W', length c = (2 ^ lg)%nat -> Forall canon c -> length c' = (2 ^ lg)%nat -> Forall canon c' ->
  let pairN := fun a : list Z * list Z => length (fst a) = (2 ^ lg)%nat /\ length (snd a) = (2 ^ lg)%nat in
  let s1 := fun c (a : list Z * list Z) => psub (2 ^ lg) (psub (2 ^ lg) c (negacyclic (2 ^ lg) (fst a) g)) (negacyclic (2 ^ lg) (snd a) G_) in
  let s2 := fun a : list Z * list Z => padd (2 ^ lg) (negacyclic (2 ^ lg) (fst a) f) (negacyclic (2 ^ lg) (snd a) F_) in
  let weight := fun c a => exp (- (IZR (sqnorm (s1 c a) + sqnorm (s2 a)) / (2 * (sigma_value RF lg * sigma_value RF lg)))) in
  total pairN (weight c) W -> total pairN (weight c') W' -> W <= W' * (1 + INR (2 * 2 ^ lg) * / 2 ^ 34).
Proof.
  intros Lf Lg LF LG HN HGS Hsm BF BG c c' W W' Lc Hc Lc' Hc' pN s1 s2 wt HZ HZ'. assert (lg1 : (1 <= lg <= 10)%nat) by (destruct Hlg as [->| ->]; lia).
  set (T0 := repeat Czero ((lg + 1) * 2 ^ lg)). assert (LT : ((lg + 1) * 2 ^ lg <= length T0)%nat) by (unfold T0; rewrite repeat_length; lia).
  destruct (tree_ok lg f g F_ G_ T0 lg1 Lf Lg LF LG HN LT) as [T [E _]].
  eapply (mass_free lg Hlg f g F_ G_ Lf Lg LF LG HN HGS Hsm BF BG _ T0 T LT (matrix_B_ok lg (proj2 lg1) f g F_ G_ Lf Lg LF LG) E c c' _ _ _ _ W W' Lc Hc Lc' Hc'); [apply target_ok; assumption || lia|apply target_ok; assumption || lia|exact HZ|exact HZ'].
Qed.
Lemma centre_sat : exists G G', gauss_sum (3 / 2) 0 G /\ gauss_sum (3 / 2) (1 / 2) G'.
Proof. exists (gsum (3 / 2) 0), (gsum (3 / 2) (1 / 2)). split; apply gsum_ok; lra. Qed.
