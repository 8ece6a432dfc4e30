(** P_kubx.v -- key generation reaches the division of zero by zero of P_kub.v with positive probability. *)
From Verif Require Import Base Spec SpecR SpecF SpecG SpecJ SpecK M_float M_exact M_ieee M_samp M_ntt M_fft M_table M_ntru M_tree P_codec P_cplx P_near P_ieee P_float P_prob P_genlaw P_genpoly P_fgsu P_kub P_key.
From Coq Require Import Reals Lra SpecFloat.
Open Scope R_scope.

Lemma avg_mono n : forall f g, (forall s, length s = n -> bytes s -> f s <= g s) -> avg n f <= avg n g.
Proof.
  induction n as [|n IH]; intros f g H; cbn [avg]; [apply H; [reflexivity|constructor]|]. unfold Rdiv. apply Rmult_le_compat_r; [lra|].
  assert (K : forall m, (m <= 256)%nat -> rsum m (fun b => avg n (fun s => f (Z.of_nat b :: s))) <= rsum m (fun b => avg n (fun s => g (Z.of_nat b :: s)))).
  { induction m as [|m IHm]; intros Hm; cbn [rsum]; [lra|]. specialize (IHm ltac:(lia)). assert (avg n (fun s => f (Z.of_nat m :: s)) <= avg n (fun s => g (Z.of_nat m :: s))); [|lra].
    apply IH. intros s L B. apply H; [cbn [length]; lia|]. constructor; [unfold byte; lia|exact B]. }
  apply K. lia.
Qed.
Lemma prob_some n P : 0 < prob n P -> exists w, length w = n /\ bytes w /\ P w = true.
Proof.
  rewrite prob_avg. revert P. induction n as [|n IH]; intros P H; cbn [avg] in H.
  - exists []. split; [reflexivity|]. split; [constructor|]. destruct (P []); [reflexivity|]. cbn in H. lra.
  - assert (K : forall m, (m <= 256)%nat -> 0 < rsum m (fun b => avg n (fun s => P_prob.ind (P (Z.of_nat b :: s)))) -> exists b, (b < m)%nat /\ 0 < avg n (fun s => P_prob.ind (P (Z.of_nat b :: s)))).
    { induction m as [|m IHm]; intros Hm Hp; cbn [rsum] in Hp; [lra|]. destruct (Rlt_dec 0 (avg n (fun s => P_prob.ind (P (Z.of_nat m :: s))))) as [L|L]; [exists m; split; [lia|exact L]|].
      destruct IHm as (b & Hb & Hb'); [lia|lra|]. exists b. split; [lia|exact Hb']. }
    destruct (K 256%nat ltac:(lia)) as (b & Hb & Hp); [lra|]. destruct (IH (fun s => P (Z.of_nat b :: s)) Hp) as (w & L & B & E). exists (Z.of_nat b :: w). split; [cbn [length]; lia|]. split; [constructor; [unfold byte; lia|exact B]|exact E].
Qed.

(** the test of key generation accepts, in binary64 *)
Lemma gs_pass64 lg f g : (lg <= 10)%nat -> length f = (2 ^ lg)%nat -> length g = (2 ^ lg)%nat -> (forall i, (i < 2 ^ lg)%nat -> 0 < row_norm lg f g i) -> gs_norm lg f g <= 168224 / 10 ->
  exists v, gram_schmidt_norm F64 (source_table F64) lg f g = Ok v /\ fgt F64 v (gs_norm_threshold F64) = false.
Proof.
  intros Hlg Lf Lg HP HG. destruct (gs_pass F64 fin64 val64 accurate64 (source_table F64) (source_near _ _ _ accurate64) lg Hlg f g Lf Lg HP HG) as (x & y & E & Fx & Fy & Ft & Hx & Hy).
  eexists. split; [exact E|]. cbn [fgt fmax F64]. unfold sf_max.
  assert (K : forall a, fin64 a -> val64 a <= val64 (gs_norm_threshold F64) -> SFltb (gs_norm_threshold F64) a = false).
  { intros a Fa Ha. destruct (SFltb (gs_norm_threshold F64) a) eqn:B; [|reflexivity]. apply (lt64 _ _ Ft Fa) in B. lra. }
  destruct (SFltb x y); apply K; assumption.
Qed.
Definition kf9 : list Z := sprk 7 pf4.
Definition kg9 : list Z := sprk 7 pg9.
Lemma len9 : length kf9 = (2 ^ 9)%nat /\ length kg9 = (2 ^ 9)%nat. Proof. split; apply sprk_length; reflexivity. Qed.
Lemma gen_stops F ztab fuel sfuel lg rng pos f0 g0 F0 G0 p1 p2 f g v : gen_poly F sfuel lg rng pos f0 = Ok (f, p1) -> gen_poly F sfuel lg rng p1 g0 = Ok (g, p2) -> is_poly_invertible lg f = Ok true ->
  gram_schmidt_norm F ztab lg f g = Ok v -> fgt F v (gs_norm_threshold F) = false -> ntru_solve F ztab sfuel lg f g = UB -> ntru_gen F ztab (S fuel) sfuel lg rng pos f0 g0 F0 G0 = UB.
Proof. intros E1 E2 I EV HV U. cbn [ntru_gen]. rewrite E1. cbn [bind]. rewrite E2. cbn [bind]. rewrite I. cbn [bind negb]. rewrite EV. cbn [bind]. rewrite HV. rewrite U. reflexivity. Qed.
Lemma gs9 : exists v, gram_schmidt_norm F64 (source_table F64) 9 kf9 kg9 = Ok v /\ fgt F64 v (gs_norm_threshold F64) = false.
Proof.
  destruct len9 as [L1 L2]. apply gs_pass64; [lia|exact L1|exact L2| |].
  - intros i _. assert (R := row_9 i). fold kf9 kg9 in R. lra.
  - apply gs_k; [exact row_9|]. unfold kf9, kg9. rewrite !sprk_sqnorm. vm_compute. discriminate.
Qed.
Lemma inv9 : is_poly_invertible 9 kf9 = Ok true. Proof. exact (inv_sprk 7 (or_introl eq_refl)). Qed.

(** ** two polynomials drawn one after the other *)
Section Law.
Variables lg fu : nat.
Hypothesis Hlg : falcon_lg lg.
Hypothesis Hfu : (1 <= fu)%nat.
Notation mu := (fofz F64 0).
Notation sg := (sigma_fg F64).
Notation sm := (sigma_min F64 lg).
Notation k := (4096 / 2 ^ lg)%nat.
Notation GL := (glist F64 mu sg sm fu k (2 ^ lg)).
Notation W := (2 ^ lg * (k * (18 * fu)))%nat.
Definition wt (v : list Z) : R := ww fu (tg lg) ^ (k * 2 ^ lg) * Rprod (map (convol (pp (tg lg)) k) v).
Lemma gl_law v : length v = (2 ^ lg)%nat -> law zl_dec GL W v (wt v).
Proof.
  intros L. apply glist_law; [exact gen_to|intros z0 b Hz Hb; apply (gen_thr lg Hlg z0 b Hz Hb)| |exact L]. assert (P := pa_range lg Hlg). lra.
Qed.
Lemma pow_lt1 x n : 0 <= x < 1 -> (1 <= n)%nat -> x ^ n < 1.
Proof. intros H Hn. apply pow_lt_1_compat; [exact H|lia]. Qed.
Lemma wt_pos v : Forall (fun x => -18 * Z.of_nat k <= x <= 19 * Z.of_nat k)%Z v -> 0 < wt v.
Proof.
  intros H. assert (P := pa_range lg Hlg). unfold wt. set (n := (k * 2 ^ lg)%nat). clearbody n. set (m := k) in *. clearbody m. apply Rmult_lt_0_compat.
  - apply pow_lt. unfold ww. assert (K := pow_lt1 (1 - pa (tg lg)) fu ltac:(lra) Hfu). lra.
  - assert (PP : forall z, 0 <= pp (tg lg) z). { intros z. unfold pp. apply Rmult_le_pos; [|left; apply Rinv_0_lt_compat; lra].
      destruct (Z_le_dec (-18) z) as [L1|L1], (Z_le_dec z 19) as [L2|L2]; try (left; apply (pg_pos lg Hlg); lia); right; symmetry; apply pg_out; lia. }
    assert (PS : forall z, (-18 <= z <= 19)%Z -> 0 < pp (tg lg) z). { intros z Hz. unfold pp. apply Rdiv_lt_0_compat; [apply (pg_pos lg Hlg), Hz|lra]. }
    induction H as [|x l Hx _ IH]; [unfold Rprod; cbn; lra|]. unfold Rprod in *. cbn [map fold_right]. apply Rmult_lt_0_compat; [|exact IH]. apply (convol_pos (pp (tg lg)) m PS PP). exact Hx.
Qed.
(** an event that happens whenever the two polynomials are f and g *)
Lemma pair_prob (ev : list Z -> bool) f g n : length f = (2 ^ lg)%nat -> length g = (2 ^ lg)%nat -> (2 * W <= n)%nat ->
  (forall s p p', bytes s -> gen_poly F64 fu lg (stream s) 0 (repeat 0%Z (2 ^ lg)) = Ok (f, p) -> gen_poly F64 fu lg (stream s) p (repeat 0%Z (2 ^ lg)) = Ok (g, p') -> ev s = true) ->
  wt f * wt g <= prob n ev.
Proof.
  intros L1 L2 Hn Hev.
  assert (E : avg n (contm zl_dec GL f (contm zl_dec GL g (fun _ => 1))) = wt f * wt g).
  { rewrite (gl_law f L1 (contm zl_dec GL g (fun _ => 1)) (wt g) W n); [ring| |lia]. intros n' Hn'. apply (law_prob zl_dec GL W g (wt g) n' (gl_law g L2) Hn'). }
  assert (I0 : forall b, 0 <= P_prob.ind b) by (intros []; cbn; lra).
  rewrite <- E, prob_avg. clear E. apply avg_mono. intros s _ Hs. unfold contm at 1.
  destruct (GL (stream s) 0%nat) as [[f' p]| |] eqn:E1; [|apply I0|apply I0].
  destruct (zl_dec f' f) as [->|_]; [|apply I0]. unfold contm.
  destruct (GL (stream (skipn p s)) 0%nat) as [[g' p2]| |] eqn:E2; [|apply I0|apply I0].
  destruct (zl_dec g' g) as [->|_]; [|apply I0].
  assert (E3 : GL (stream s) p = Ok (g, (p + p2)%nat)). { rewrite <- (Nat.add_0_r p) at 1. rewrite (glist_shifts F64 mu sg sm fu _ _ (stream s) (stream (skipn p s)) p 0%nat) by (intros i; unfold stream; symmetry; apply nth_skip). rewrite E2. reflexivity. }
  rewrite <- (gen_glist F64 lg gen_to fu (stream s) (stream_byte s Hs) 0 (repeat 0%Z (2 ^ lg)) Hlg (repeat_length _ _)) in E1.
  rewrite <- (gen_glist F64 lg gen_to fu (stream s) (stream_byte s Hs) p (repeat 0%Z (2 ^ lg)) Hlg (repeat_length _ _)) in E3.
  rewrite (Hev s p (p + p2)%nat Hs E1 E3). cbn [P_prob.ind]. lra.
Qed.
End Law.
Lemma k9 : (4096 / 2 ^ 9 = 8)%nat. Proof. vm_compute. reflexivity. Qed.
Lemma range_f9 : Forall (fun x => -18 * Z.of_nat (4096 / 2 ^ 9) <= x <= 19 * Z.of_nat (4096 / 2 ^ 9))%Z kf9.
Proof. rewrite k9. apply sprk_forall; [lia|]. unfold pf4. repeat constructor; lia. Qed.
Lemma range_g9 : Forall (fun x => -18 * Z.of_nat (4096 / 2 ^ 9) <= x <= 19 * Z.of_nat (4096 / 2 ^ 9))%Z kg9.
Proof. rewrite k9. apply sprk_forall; [lia|]. unfold pg9. repeat constructor; lia. Qed.
Lemma keygen_ub_prob : exists sfuel n, forall fuel pkey skey, 0 < prob n (fun w => undefined (keygen_bytes F64 (source_table F64) (S fuel) sfuel 9 pkey skey (stream w))).
Proof.
  assert (U : ntru_solve F64 (source_table F64) 400 9 kf9 kg9 = UB) by exact ub_512.
  assert (H1 : (1 <= 400)%nat) by lia. revert U H1. generalize 400%nat. intros fu U H1.
  assert (Hlg : falcon_lg 9) by (left; reflexivity). destruct len9 as [L1 L2]. destruct gs9 as (v & EV & HV).
  exists fu, (2 * (2 ^ 9 * (4096 / 2 ^ 9 * (18 * fu))))%nat. intros fuel pkey skey. eapply Rlt_le_trans; [|apply (pair_prob 9 fu Hlg H1 _ kf9 kg9 _ L1 L2 (Nat.le_refl _))].
  - apply Rmult_lt_0_compat; apply (wt_pos 9 fu Hlg H1); [exact range_f9|exact range_g9].
  - intros s p p' _ E1 E2. unfold keygen_bytes. rewrite (gen_stops F64 (source_table F64) fuel fu 9 (stream s) 0 _ _ (repeat 0%Z (2 ^ 9)) (repeat 0%Z (2 ^ 9)) p p' kf9 kg9 v E1 E2 inv9 EV HV U). reflexivity.
Qed.
Lemma keygen_ub : forall fuel pkey skey, exists sfuel rng, byte_stream rng /\ keygen_bytes F64 (source_table F64) (S fuel) sfuel 9 pkey skey rng = UB.
Proof.
  intros fuel pkey skey. destruct keygen_ub_prob as (sfuel & n & H). specialize (H fuel pkey skey). apply prob_some in H. destruct H as (w & _ & B & E). exists sfuel, (stream w). split; [intros i; apply stream_byte, B|].
  destruct (keygen_bytes F64 (source_table F64) (S fuel) sfuel 9 pkey skey (stream w)); [discriminate|reflexivity|discriminate].
Qed.
Lemma k_pass : length kf = 512%nat /\ length kg = 512%nat /\ (forall i, 0 < row_norm 9 kf kg i) /\ gs_norm 9 kf kg <= 168224 / 10.
Proof. destruct k_length as (L1 & L2 & _). split; [exact L1|]. split; [exact L2|]. split; [intros i; assert (K := k_row i); lra|]. assert (K := k_gs). lra. Qed.
