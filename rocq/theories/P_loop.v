(** P_loop.v -- sampling again until the result is accepted: the probability of each accepted result, and the distance from the conditional distribution. *)
From Verif Require Import Base Spec SpecR SpecG M_float M_exact M_samp P_gauss P_prob P_dist P_joint P_gsum P_prog P_jprob.
From Verif Require P_exact P_sampz P_dist64.
From Coq Require Import Reals Lra.
Open Scope R_scope.
Notation ind := P_prob.ind.

Section Run.
Variables (F : fops) (smin : D F) (ct sd : D F -> R) (thf : D F -> D F -> nat -> Z -> Z).
Notation lawp := (lawp F smin ct sd thf).
Notation deep := (deep F).
Notation PK := (PK F ct thf).
Notation flo := (flo F ct).
(** expected value of e over the results, 0 counting for runs that do not end *)
Fixpoint ex {A} (k : nat) (p : prog F A) (e : A -> R) : R :=
  match p with Ret a => e a | Stop _ => 0 | Call mu s c => rsum 38 (fun j => let v := (flo mu - 18 + Z.of_nat j)%Z in ex k (c v) e * PK k mu s v) end.
Definition evg {A} (k : nat) (p : prog F A) (psi : A -> list Z -> R) (w : list Z) : R :=
  match run smin k (stream w) p 0 with Ok (a, n) => psi a (skipn n w) | _ => 0 end.
Lemma skip_skip {A} (l : list A) a b : skipn b (skipn a l) = skipn (a + b) l.
Proof. revert l. induction a as [|a IH]; intros l; [reflexivity|]. destruct l as [|x l]; [cbn; destruct b; reflexivity|apply IH]. Qed.
Lemma evg_call {A} k mu s (c : Z -> prog F A) psi w : evg k (Call mu s c) psi w = match samplerz F k mu s smin (stream w) 0 with Ok (v, n) => evg k (c v) psi (skipn n w) | _ => 0 end.
Proof.
  unfold evg. cbn [run]. destruct (samplerz F k mu s smin (stream w) 0) as [[v n]| |]; cbn [bind]; [|reflexivity|reflexivity]. rewrite run_skip.
  destruct (run smin k (stream (skipn n w)) (c v) 0) as [[a m]| |]; [|reflexivity|reflexivity]. rewrite skip_skip. reflexivity.
Qed.
Lemma avg_evg {A} k (p : prog F A) : lawp p -> forall d n n0 psi e, deep d p -> (forall a, (exists cs, pcalls p cs a) -> forall n', (n0 <= n')%nat -> avg n' (psi a) = e a) ->
  (18 * k * d + n0 <= n)%nat -> avg n (evg k p psi) = ex k p e.
Proof.
  induction p as [a|mu s c IH|b]; intros L d n n0 psi e Hd He Hn; cbn [P_jprob.lawp P_jprob.deep ex] in *; [| |tauto].
  - unfold evg. cbn [run]. rewrite (avg_ext n _ (psi a)) by (intros; reflexivity). apply He; [exists []; split; reflexivity|lia].
  - destruct d as [|d]; [tauto|]. destruct L as [L LP].
    rewrite (avg_ext n _ (fun w => rsum 38 (fun j => let v := (flo mu - 18 + Z.of_nat j)%Z in cont F mu s smin k v (evg k (c v) psi) w))).
    + rewrite avg_rsum. apply rsum_ext. intros j Hj. cbv zeta. set (v := (flo mu - 18 + Z.of_nat j)%Z).
      rewrite (cont_prob F mu s smin (thf mu s) (flo mu) (law_th _ _ _ _ _ _ _ L) (law_to _ _ _ _ _ _ _ L) k v _ (ex k (c v) e) (18 * k * d + n0)).
      * rewrite (PK_geom F smin ct sd thf) by exact L. reflexivity.
      * intros n' Hn'. apply (IH v) with d n0; [apply LP; unfold flo in *; lia|apply Hd| |exact Hn']. intros a [cs Ha]. apply He. exists ((mu, s, v) :: cs). cbn [pcalls]. exists v, cs. split; [reflexivity|exact Ha].
      * lia.
    + intros w _ Hw. rewrite evg_call. unfold cont. destruct (samplerz F k mu s smin (stream w) 0) as [[v n']| |] eqn:E; [|rewrite rsum_const; ring|rewrite rsum_const; ring].
      apply (in_window F smin ct sd thf _ _ _ _ _ _ L Hw) in E. fold flo in E. rewrite (rsum_one 38 (Z.to_nat (v - flo mu + 18))); [|lia|].
      * cbv zeta. replace (flo mu - 18 + Z.of_nat (Z.to_nat (v - flo mu + 18)))%Z with v by lia. rewrite Z.eqb_refl. reflexivity.
      * intros j Hj N. cbv zeta. destruct (Z.eqb_spec v (flo mu - 18 + Z.of_nat j)); [lia|reflexivity].
Qed.
Lemma prob_ex {A} k (p : prog F A) (tst : A -> bool) d n : lawp p -> deep d p -> (18 * k * d <= n)%nat -> prob n (fun w => ends_with tst (run smin k (stream w) p 0)) = ex k p (fun a => ind (tst a)).
Proof.
  intros L Hd Hn. rewrite prob_avg, (avg_ext n _ (evg k p (fun a _ => ind (tst a)))).
  - apply (avg_evg k p L d n 0); [exact Hd|intros a _ n' _; apply avg_const|lia].
  - intros w _ _. unfold evg. destruct (run smin k (stream w) p 0) as [[a m]| |]; reflexivity.
Qed.
Lemma ex_ext {A} k (p : prog F A) e e' : (forall a, (exists cs, pcalls p cs a) -> e a = e' a) -> ex k p e = ex k p e'.
Proof.
  induction p as [a|mu s c IH|b]; intros H; cbn [ex]; [apply H; exists []; split; reflexivity| |reflexivity]. apply rsum_ext. intros j _. cbv zeta. f_equal. apply IH. intros a [cs Ha]. apply H.
  eexists. cbn [pcalls]. eexists. exists cs. split; [reflexivity|exact Ha].
Qed.
Lemma ex_plus {A} k (p : prog F A) e e' : ex k p (fun a => e a + e' a) = ex k p e + ex k p e'.
Proof.
  induction p as [a|mu s c IH|b]; cbn [ex]; [reflexivity| |lra]. rewrite <- rsum_plus. apply rsum_ext. intros j _. cbv zeta. rewrite IH. ring.
Qed.
Lemma ex_scal {A} k (p : prog F A) r e : ex k p (fun a => r * e a) = r * ex k p e.
Proof.
  induction p as [a|mu s c IH|b]; cbn [ex]; [reflexivity| |ring]. rewrite <- rsum_scal. apply rsum_ext. intros j _. cbv zeta. rewrite IH. ring.
Qed.
Lemma ex_lsum {A X} k (p : prog F A) (e : X -> A -> R) L : ex k p (fun a => lsum (fun x => e x a) L) = lsum (fun x => ex k p (e x)) L.
Proof.
  induction L as [|x L IH]; unfold lsum in *; cbn [fold_right]; [rewrite (ex_ext k p _ (fun a => 0 * 0)) by (intros; ring); rewrite (ex_scal k p 0 (fun _ => 0)); ring|rewrite ex_plus, IH; reflexivity].
Qed.
Lemma ex_pos {A} k (p : prog F A) e : lawp p -> (forall a, 0 <= e a) -> 0 <= ex k p e.
Proof.
  induction p as [a|mu s c IH|b]; intros L H; cbn [ex P_jprob.lawp] in *; [apply H| |tauto]. destruct L as [L LP].
  apply Rle_trans with (rsum 38 (fun _ => 0)); [rewrite rsum_const; lra|]. apply (rsum_le F smin ct sd thf). intros j Hj. cbv zeta. apply Rmult_le_pos; [apply IH; [apply LP; unfold flo in *; lia|exact H]|apply (PK_pos F smin ct sd thf); exact L].
Qed.

(** a program made of p and a second one *)
Lemma avg_bind {A B} k (p : prog F A) (f : A -> prog F B) (tst : B -> bool) d n n0 e : lawp p -> deep d p ->
  (forall a, (exists cs, pcalls p cs a) -> forall n', (n0 <= n')%nat -> avg n' (fun w => ind (ends_with tst (run smin k (stream w) (f a) 0))) = e a) ->
  (18 * k * d + n0 <= n)%nat -> avg n (fun w => ind (ends_with tst (run smin k (stream w) (pbind p f) 0))) = ex k p e.
Proof.
  intros L Hd He Hn. rewrite <- (avg_evg k p L d n n0 (fun a w => ind (ends_with tst (run smin k (stream w) (f a) 0))) e Hd He Hn). apply avg_ext. intros w _ _. unfold evg.
  rewrite run_bind. destruct (run smin k (stream w) p 0) as [[a m]| |]; cbn [bind]; [|reflexivity|reflexivity]. rewrite run_skip. destruct (run smin k (stream (skipn m w)) (f a) 0) as [[b m']| |]; reflexivity.
Qed.
End Run.

(** ** the distance *)
Fixpoint geo (r : R) (m : nat) : R := match m with O => 0 | S m' => 1 + r * geo r m' end.
Lemma geo_eq r m : geo r m * (1 - r) = 1 - r ^ m.
Proof. induction m as [|m IH]; cbn [geo pow]; [ring|]. replace ((1 + r * geo r m) * (1 - r)) with (1 - r + r * (geo r m * (1 - r))) by ring. rewrite IH. ring. Qed.
Lemma geo_pos r m : 0 <= r -> 0 <= geo r m.
Proof. intros H. induction m as [|m IH]; cbn [geo]; [lra|]. assert (0 <= r * geo r m) by (apply Rmult_le_pos; assumption). lra. Qed.
Section Dist.
Context {X : Type}.
Variables (P w : X -> R) (LA : list X) (W WA phi dl : R) (m : nat).
Hypothesis HP : forall s, 0 <= P s.
Hypothesis Hw : forall s, 0 <= w s.
Hypothesis W0 : 0 < W.
Hypothesis WA0 : 0 < WA.
Hypothesis EA : lsum w LA = WA.
Hypothesis TV : lsum (fun s => Rabs (P s - w s / W)) LA <= dl.
Hypothesis Hphi : 1 - dl <= phi <= 1.
Hypothesis Hrej : lsum P LA <= phi.
Notation a := (lsum P LA).
Notation r := (phi - a).
Notation ro := (WA / W).
Lemma cond_dist : lsum (fun s => Rabs (P s * geo r m - w s / WA)) LA <= 4 * dl / ro + (1 - ro + dl) ^ m.
Proof.
  assert (R0 : 0 < ro) by (apply Rdiv_lt_0_compat; assumption). assert (A0 : 0 <= a) by (apply lsum_pos; exact HP).
  assert (Da : Rabs (a - ro) <= dl).
  { eapply Rle_trans; [|exact TV]. replace (a - ro) with (lsum (fun s => P s - w s / W) LA).
    - clear. induction LA as [|s L IH]; unfold lsum in *; cbn [fold_right]; [rewrite Rabs_R0; lra|]. eapply Rle_trans; [apply Rabs_triang|]. lra.
    - rewrite (lsum_ext _ (fun s => P s + (- / W) * w s)) by (intros; unfold Rdiv; ring). rewrite lsum_plus, lsum_scal, EA. unfold Rdiv. ring. }
  assert (Dl : 0 <= dl) by (eapply Rle_trans; [apply Rabs_pos|exact Da]).
  assert (D1 := Rle_trans _ _ _ (Rle_abs _) Da). assert (D2 := Rle_trans _ _ _ (Rle_abs _) (Rle_trans _ _ _ (Req_le _ _ (Rabs_Ropp _)) Da)).
  set (g := geo r m). assert (G0 : 0 <= g) by (apply geo_pos; lra). assert (G := geo_eq r m : g * (1 - r) = 1 - r ^ m).
  assert (R1 : 0 <= r ^ m) by (apply pow_le; lra). assert (R2 : r ^ m <= (1 - ro + dl) ^ m) by (apply pow_incr; lra). assert (R3 : r ^ m <= 1) by (apply pow_le1; lra).
  assert (AG : a * g <= 1). { assert (a * g <= (1 - r) * g) by (apply Rmult_le_compat_r; lra). lra. }
  assert (K : Rabs (ro * g - 1) * a <= 2 * dl + a * r ^ m).
  { replace (ro * g - 1) with ((ro - (1 - r)) * g + (- r ^ m)) by (rewrite Rmult_minus_distr_r, (Rmult_comm (1 - r)), G; ring).
    apply Rle_trans with ((Rabs (ro - (1 - r)) * g + r ^ m) * a).
    - apply Rmult_le_compat_r; [exact A0|]. eapply Rle_trans; [apply Rabs_triang|]. rewrite Rabs_mult, Rabs_Ropp, (Rabs_pos_eq g), (Rabs_pos_eq (r ^ m)) by assumption. apply Rle_refl.
    - assert (Rabs (ro - (1 - r)) <= 2 * dl) by (apply Rabs_le; lra). assert (Rabs (ro - (1 - r)) * (a * g) <= 2 * dl * 1) by (apply Rmult_le_compat; [apply Rabs_pos|apply Rmult_le_pos; assumption|assumption|exact AG]).
      lra. }
  apply Rmult_le_reg_l with ro; [exact R0|]. rewrite <- lsum_scal.
  apply Rle_trans with (lsum (fun s => Rabs (P s - w s / W) + Rabs (ro * g - 1) * P s) LA).
  - apply lsum_le. intros s _. rewrite <- (Rabs_pos_eq ro) at 1 by lra. rewrite <- Rabs_mult. replace (ro * (P s * g - w s / WA)) with ((P s - w s / W) + (ro * g - 1) * P s) by (field; lra).
    eapply Rle_trans; [apply Rabs_triang|]. rewrite (Rabs_mult (ro * g - 1)), (Rabs_pos_eq (P s)) by apply HP. apply Rle_refl.
  - rewrite lsum_plus, lsum_scal. rewrite Rmult_plus_distr_l. replace (ro * (4 * dl / ro)) with (4 * dl) by (field; split; lra).
    assert (a * r ^ m <= ro * (1 - ro + dl) ^ m + dl).
    { apply Rle_trans with ((ro + dl) * r ^ m); [apply Rmult_le_compat_r; lra|]. assert (ro * r ^ m <= ro * (1 - ro + dl) ^ m) by (apply Rmult_le_compat_l; lra). assert (dl * r ^ m <= dl * 1) by (apply Rmult_le_compat_l; lra). lra. }
    lra.
Qed.
End Dist.
