(** P_guess.v -- in the experiment [solver] drawn vectors are rarely long, and rarely guessed from their points. *)
From Verif Require Import Base Spec SpecT SpecU SpecV SpecX SpecR SpecS SpecG SpecJ SpecH SpecM M_ff M_codec M_ntt M_sig M_verify M_float M_exact M_samp M_fft M_ntru M_tree P_prob P_gsum P_jprob P_jgauss P_jkey P_jcoset P_kubx P_widek P_sim P_fitm P_fits P_vers P_simsig P_loopk P_adapt P_rom P_solve.
From Verif Require P_leaf P_fit P_tot P_theta P_genlaw P_signx.
From Coq Require Import Lra.
Open Scope R_scope.

(** ** the sum of all weights *)
Lemma lsum_card {X} (f : X -> R) a : forall L, (forall x, In x L -> a <= f x) -> INR (length L) * a <= lsum f L.
Proof.
  induction L as [|x L IH]; intros H; [unfold lsum; cbn; lra|]. cbn [length]. rewrite S_INR. unfold lsum in *. cbn [fold_right]. assert (Q := H x (or_introl eq_refl)). assert (Q' := IH (fun y Hy => H y (or_intror Hy))). lra.
Qed.
Lemma weight_big lg : falcon_lg lg -> forall WT, total (pairN lg) (fun s => wts lg s) WT -> 12289 ^ (2 ^ lg) / WT <= (/ 2) ^ (2 ^ lg).
Proof.
  intros Hlg WT TWT. set (k := / (2 * (sigma_value RF lg * sigma_value RF lg))).
  assert (k0 : / (2 * (18205 / 10000) ^ 2) <= 4 ^ 8 * k) by (unfold k; destruct Hlg as [-> | ->]; [rewrite P_leaf.sigma_9|rewrite P_leaf.sigma_10]; lra).
  assert (k1 : 0 < k <= 2 / 100000) by (unfold k; destruct Hlg as [-> | ->]; [rewrite P_leaf.sigma_9|rewrite P_leaf.sigma_10]; lra).
  destruct (P_theta.th_exn 8 k 0 k0) as [TH HT]. unfold P_theta.th in HT.
  assert (HT1 : P_tot.tot (P_fit.rho1 k) TH) by (eapply P_tot.tot_ext; [|exact HT]; intros z; unfold P_fit.rho1; cbv beta; rewrite Rminus_0_r; reflexivity).
  assert (P1 : forall z, 0 <= P_fit.rho1 k z) by (intros z; left; apply exp_pos). assert (T1 := total_len Z.eq_dec _ _ P1 HT1 (2 ^ lg)).
  assert (A1 := total_prod (list_eq_dec Z.eq_dec) (list_eq_dec Z.eq_dec) _ _ _ _ _ _ (fun l => Rprod_map_pos _ l P1) (fun l => Rprod_map_pos _ l P1) T1 T1).
  assert (EW : WT = TH ^ (2 ^ lg) * TH ^ (2 ^ lg)).
  { apply (total_unique _ _ _ _ TWT). eapply total_ext_fun; [|exact A1]. intros s. cbv beta. rewrite !rho_prod, <- exp_plus. f_equal. rewrite plus_IZR. unfold k, Rdiv. ring. }
  assert (TH1 : 170 <= TH).
  { set (V := map (fun i => (Z.of_nat i - 130)%Z) (seq 0 261)). assert (NV : NoDup V).
    { apply FinFun.Injective_map_NoDup; [|apply seq_NoDup]. intros i j E. lia. }
    eapply Rle_trans; [|exact (P_tot.tot_le _ _ V HT1 NV)]. apply Rle_trans with (INR (length V) * (66 / 100)).
    - unfold V. rewrite map_length, seq_length. replace (INR 261) with 261 by (rewrite INR_IZR_INZ; reflexivity). lra.
    - apply lsum_card. intros z Hz. unfold V in Hz. apply in_map_iff in Hz. destruct Hz as (i & <- & Hi). apply in_seq in Hi. unfold P_fit.rho1. set (z := (Z.of_nat i - 130)%Z) in *.
      assert (Zb : (z * z <= 16900)%Z) by (unfold z; nia). assert (Zr : IZR z ^ 2 <= 16900) by (replace (IZR z ^ 2) with (IZR (z * z)) by (rewrite mult_IZR; ring); apply (IZR_le _ 16900); exact Zb).
      assert (Z0 : 0 <= IZR z ^ 2) by apply pow2_ge_0.
      assert (Q := exp_ineq1_le (- (k * IZR z ^ 2))). assert (k * IZR z ^ 2 <= 2 / 100000 * 16900) by (apply Rmult_le_compat; lra).
      match goal with |- _ <= exp ?a => replace a with (- (k * IZR z ^ 2)) by (cbn [pow]; ring) end. lra. }
  rewrite EW, <- Rpow_mult_distr. assert (T2 : 170 * 170 <= TH * TH) by (apply Rmult_le_compat; lra). unfold Rdiv. rewrite <- (pow_inv (TH * TH)), <- Rpow_mult_distr. apply pow_incr. split.
  - apply Rmult_le_pos; [lra|]. left. apply Rinv_0_lt_compat. lra.
  - apply (Rmult_le_reg_r (TH * TH)); [lra|]. rewrite Rmult_assoc, Rinv_l by lra. lra.
Qed.

Section Guess.
Variables (lg : nat) (h : list Z) (WT : R) (WT0 : 0 < WT) (TWT : total (pairN lg) (fun s => wts lg s) WT).
Variable A : view -> request.
Notation slv E := (solver lg h WT A E).

(** ** long vectors *)
Definition bigd (seen : view) (drawn : list vec) : bool := existsb (fun s => negb (shortb lg s)) drawn.
Variable tau : R.
Hypothesis tau0 : 0 <= tau.
Hypothesis Htau : forall L, NoDup L -> Forall (fun s => pairN lg s /\ shortb lg s = false) L -> lsum (fun s => wts lg s) L <= tau * WT.
Lemma big_step (y : vec -> R) z b : 0 <= b -> total (pairN lg) (fun s => wts lg s / WT * y s) z -> (forall s, pairN lg s -> y s <= 1) -> (forall s, pairN lg s -> shortb lg s = true -> y s <= b) -> z <= tau + b.
Proof.
  intros b0 T H1 H2. apply (total_ub _ _ _ _ T). intros L NL DL. rewrite Forall_forall in DL. rewrite (lsum_part (shortb lg)), Rplus_comm. apply Rplus_le_compat.
  - apply Rle_trans with (lsum (fun s => / WT * wts lg s) (filter (fun s => negb (shortb lg s)) L)).
    + apply lsum_le. intros s Hs. apply filter_In in Hs. destruct Hs as [Hs _]. rewrite (Rmult_comm (/ WT)). change (wts lg s * / WT) with (wts lg s / WT). rewrite <- (Rmult_1_r (wts lg s / WT)) at 2. apply (w_scal lg WT WT0 y (fun _ => 1)). apply H1, DL, Hs.
    + rewrite lsum_scal. apply (Rmult_le_reg_l WT); [exact WT0|]. rewrite <- Rmult_assoc, Rinv_r, Rmult_1_l, (Rmult_comm WT) by lra. apply Htau; [apply NoDup_filter; exact NL|]. apply Forall_forall. intros s Hs. apply filter_In in Hs. destruct Hs as [Hs E].
      split; [apply DL, Hs|]. apply Bool.negb_true_iff. exact E.
  - apply Rle_trans with (lsum (fun s => b * (wts lg s / WT)) (filter (shortb lg) L)).
    + apply lsum_le. intros s Hs. apply filter_In in Hs. destruct Hs as [Hs E]. rewrite (Rmult_comm b). apply (w_scal lg WT WT0 y (fun _ => b)). apply H2; [apply DL, Hs|exact E].
    + rewrite lsum_scal. rewrite <- (Rmult_1_r b) at 2. apply Rmult_le_compat_l; [exact b0|]. apply (total_le _ _ _ _ (TW1 lg WT WT0 TWT)); [apply NoDup_filter; exact NL|]. apply Forall_forall. intros s Hs. apply filter_In in Hs. apply DL, Hs.
Qed.
Lemma big_le : (0 < beta2 lg)%Z -> forall r p seen drawn x, bigd seen drawn = false -> slv bigd r p seen drawn x -> x <= INR r * tau.
Proof.
  intros B0. induction r as [|r IH]; intros p seen drawn x HB H; cbn [solver] in H.
  - subst x. rewrite HB. cbn [INR]. lra.
  - assert (R0 : 0 <= INR r * tau) by (apply Rmult_le_pos; [apply pos_INR|exact tau0]). rewrite S_INR. replace ((INR r + 1) * tau) with (tau + INR r * tau) by ring. destruct (A seen) as [salt msg|msg sig].
    + destruct (in_dec _ (salt ++ msg) p) as [|].
      * assert (Q : x <= INR r * tau); [|lra]. refine (IH p _ _ _ _ H). unfold bigd in *. cbn [existsb]. rewrite HB, Bool.orb_false_r. unfold shortb. cbn [fst snd sqnorm fold_right]. apply Bool.negb_false_iff, Z.leb_le. lia.
      * destruct H as (y & Hy & Ty). apply (big_step y); [exact R0|exact Ty|intros s _; exact (proj2 (solver_01 lg h WT WT0 TWT A _ _ _ _ _ _ (Hy s)))|]. intros s _ Hs. refine (IH _ _ _ _ _ (Hy s)). unfold bigd in *. cbn [existsb]. rewrite Hs, HB. reflexivity.
    + destruct H as (z & Hz & ->). rewrite <- (mean_const 40 (tau + INR r * tau)). apply mean_mono. intros sa. destruct (Hz sa) as (y & Hy & Ty).
      apply (big_step y); [exact R0|exact Ty|intros s _; exact (proj2 (solver_01 lg h WT WT0 TWT A _ _ _ _ _ _ (Hy s)))|]. intros s _ Hs. refine (IH _ _ _ _ _ (Hy s)). unfold bigd in *. cbn [existsb]. rewrite Hs, HB. reflexivity.
Qed.

(** ** guesses *)
Variable G : view -> option (nat * vec).
Hypothesis HG : forall seen j s, G seen = Some (j, s) -> exists x c, nth_error seen j = Some (x :: c, []).
Definition guess (b : nat) (seen : view) (drawn : list vec) : bool := match G seen with Some (j, s) => Nat.ltb j b && (if pair_dec s (nth j drawn ([], [])) then true else false) | None => false end.
Definition guess_at (r : nat) (seen : view) (drawn : list vec) : bool := match G seen with Some (j, s) => Nat.eqb j r && (if pair_dec s (nth j drawn ([], [])) then true else false) | None => false end.
Definition says (r : nat) (i : vec) (seen : view) (drawn : list vec) : bool := match G seen with Some (j, s) => Nat.eqb j r && (if pair_dec s i then true else false) | None => false end.
Notation gam := (12289 ^ (2 ^ lg) / WT).
Lemma gam_pos : 0 <= gam.
Proof. apply Rmult_le_pos; [apply pow_le; lra|left; apply Rinv_0_lt_compat; exact WT0]. Qed.
(** the entry made when r steps remain stays at place r *)
Definition kept (r : nat) (e : list Z * list Z) (s : vec) (i : nat) (seen : view) (drawn : list vec) : Prop := (i <= r)%nat /\ nth_error seen (r - i) = Some e /\ nth_error drawn (r - i) = Some s.
Lemma kept_step r e s i seen drawn e' s' : kept r e s (S i) seen drawn -> kept r e s i (e' :: seen) (s' :: drawn).
Proof. intros (Hi & H1 & H2). split; [lia|]. replace (r - i)%nat with (S (r - S i)) by lia. split; assumption. Qed.
Lemma kept_start r e s seen drawn : kept r e s r (e :: seen) (s :: drawn).
Proof. split; [lia|]. rewrite Nat.sub_diag. split; reflexivity. Qed.
Lemma one_value (s : vec) : forall L, NoDup L -> lsum (fun i => if (if pair_dec s i then true else false) then 1 else 0) L <= 1.
Proof.
  assert (Z0 : forall L, ~ In s L -> lsum (fun i => if (if pair_dec s i then true else false) then 1 else 0) L = 0).
  { induction L as [|i L IH]; intros H; [reflexivity|]. unfold lsum in *. cbn [fold_right]. rewrite IH by (intros Q; apply H; right; exact Q). destruct (pair_dec s i) as [->|]; [destruct H; left; reflexivity|lra]. }
  induction 1 as [|i L Hi NL IH]; [unfold lsum; cbn; lra|]. change (lsum ?f (i :: L)) with (f i + lsum f L). cbv beta. destruct (pair_dec s i) as [->|]; [rewrite Z0 by exact Hi; lra|lra].
Qed.
Lemma no_guess r p seen drawn e s x : (forall a c, e <> (a :: c, [])) -> slv (guess_at r) r p (e :: seen) (s :: drawn) x -> x <= 0.
Proof.
  intros He H. destruct (solver_sig lg h WT WT0 TWT A (fun _ _ => false) r p (e :: seen) (s :: drawn)) as (x1 & H1 & _). assert (Z1 := never lg h WT A r _ _ _ _ H1).
  rewrite <- Z1. refine (implies_le lg h WT WT0 TWT A (guess_at r) (fun _ _ => false) (kept r e s) _ _ r p (e :: seen) (s :: drawn) x x1 (kept_start r e s seen drawn) H H1).
  - intros i sn dn e' s' K _. apply kept_step; exact K.
  - intros sn dn (_ & K1 & _) Q. exfalso. rewrite Nat.sub_0_r in K1. unfold guess_at in Q. destruct (G sn) as [[j s']|] eqn:EG; [|discriminate]. destruct (HG _ _ _ EG) as (a & c & N). apply Bool.andb_true_iff in Q. destruct Q as [Q _]. apply Nat.eqb_eq in Q. subst j.
    rewrite K1 in N. injection N as N. exact (He _ _ N).
Qed.
Lemma guess_at_le r p seen drawn x : slv (guess_at r) (S r) p seen drawn x -> x <= gam.
Proof.
  intros H. assert (g0 := gam_pos). cbn [solver] in H. destruct (A seen) as [salt msg|msg sig].
  - destruct (in_dec _ (salt ++ msg) p) as [|].
    + apply Rle_trans with 0; [|exact g0]. refine (no_guess r p seen drawn _ _ x _ H). intros a c Q. discriminate Q.
    + destruct H as (y & Hy & Ty). apply (total_ub _ _ _ _ Ty). intros L NL DL.
      set (Y := fun c i => proj1_sig (solver_sig lg h WT WT0 TWT A (says r i) r ((salt ++ msg) :: p) ((c, []) :: seen) (i :: drawn))).
      assert (HY : forall c i, slv (says r i) r ((salt ++ msg) :: p) ((c, []) :: seen) (i :: drawn) (Y c i)) by (intros c i; apply (proj2_sig (solver_sig lg h WT WT0 TWT A (says r i) r _ _ _))).
      assert (LY : forall s, y s <= Y (point_of lg h s) s).
      { intros s. refine (implies_le lg h WT WT0 TWT A (guess_at r) (says r s) (kept r (point_of lg h s, []) s) _ _ r _ _ _ _ _ (kept_start r _ s seen drawn) (Hy s) (HY _ s)).
        - intros i sn dn e' s' K _. apply kept_step; exact K.
        - intros sn dn (_ & _ & K2) Q. rewrite Nat.sub_0_r in K2. unfold guess_at in Q. unfold says. destruct (G sn) as [[j s']|]; [|discriminate]. destruct (Nat.eqb_spec j r) as [->|]; [|discriminate]. cbn [andb] in *. rewrite (nth_error_nth _ _ _ K2) in Q. exact Q. }
      assert (Y0 : forall c i, 0 <= Y c i) by (intros c i; apply (solver_01 lg h WT WT0 TWT A _ _ _ _ _ _ (HY c i))).
      assert (YS : forall c S, NoDup S -> lsum (Y c) S <= 1).
      { intros c S NS. refine (disjoint_sum lg h WT WT0 TWT A (says r) S _ r ((salt ++ msg) :: p) ((c, []) :: seen) (fun i => i :: drawn) (Y c) (HY c)).
        intros sn dn. unfold says. destruct (G sn) as [[j s']|]; [|rewrite P_genlaw.lsum_zero by reflexivity; lra]. destruct (Nat.eqb j r); cbn [andb]; [apply one_value; exact NS|rewrite P_genlaw.lsum_zero by reflexivity; lra]. }
      apply Rle_trans with (/ WT * lsum (fun s => Y (point_of lg h s) s) L).
      * rewrite <- lsum_scal. apply lsum_le. intros s _. unfold Rdiv. rewrite (Rmult_comm _ (/ WT)), Rmult_assoc. apply Rmult_le_compat_l; [left; apply Rinv_0_lt_compat; exact WT0|].
        assert (W1 : wts lg s <= 1). { rewrite <- exp_0. destruct (Req_dec (- (IZR (sqnorm (fst s) + sqnorm (snd s)) / (2 * (sigma_value RF lg * sigma_value RF lg)))) 0) as [->|N]; [apply Rle_refl|]. left. apply exp_increasing.
          assert (0 <= IZR (sqnorm (fst s) + sqnorm (snd s))) by (apply (IZR_le 0); assert (P1 := P_signx.sqnorm_pos (fst s)); assert (P2 := P_signx.sqnorm_pos (snd s)); lia).
          assert (0 <= IZR (sqnorm (fst s) + sqnorm (snd s)) / (2 * (sigma_value RF lg * sigma_value RF lg))); [|lra]. unfold Rdiv. apply Rmult_le_pos; [assumption|].
          destruct (Req_dec (2 * (sigma_value RF lg * sigma_value RF lg)) 0) as [E0|E0]; [rewrite E0, Rinv_0; lra|]. left. apply Rinv_0_lt_compat. assert (Q := Rle_0_sqr (sigma_value RF lg)). unfold Rsqr in Q. lra. }
        assert (w0 : 0 < wts lg s) by apply exp_pos. assert (Q := LY s). assert (Q0 := Y0 (point_of lg h s) s). assert (y0 : 0 <= y s) by apply (solver_01 lg h WT WT0 TWT A _ _ _ _ _ _ (Hy s)).
        apply Rle_trans with (1 * y s); [apply Rmult_le_compat_r; assumption|lra].
      * rewrite (lsum_keys (list_eq_dec Z.eq_dec) (hkey lg h) _ (polys (2 ^ lg)) L (polys_nodup _)) by (intros; apply hkey_in).
        unfold Rdiv. rewrite (Rmult_comm (12289 ^ _)). apply Rmult_le_compat_l; [left; apply Rinv_0_lt_compat; exact WT0|]. rewrite <- (Rmult_1_r (12289 ^ 2 ^ lg)), <- polys_const. apply lsum_le. intros c _.
        apply Rle_trans with (lsum (Y c) (at_key (list_eq_dec Z.eq_dec) (hkey lg h) c L)); [|apply YS, NoDup_filter; exact NL]. right. apply lsum_ext. intros s Hs. apply in_at_key in Hs. destruct Hs as [_ Hs]. change (hkey lg h s) with (point_of lg h s) in Hs. rewrite Hs. reflexivity.
  - destruct H as (z & Hz & ->). apply Rle_trans with 0; [|exact g0]. rewrite <- (mean_const 40 0). apply mean_mono. intros sa. destruct (Hz sa) as (y & Hy & Ty). apply (draw_le lg WT WT0 TWT y); [lra|exact Ty|]. intros s _.
    refine (no_guess r _ _ _ _ _ _ _ (Hy s)). intros a c Q. injection Q as _ Q. unfold bytes_of in Q. discriminate Q.
Qed.
Lemma guess_le : forall r p seen drawn x, slv (guess r) r p seen drawn x -> x <= INR r * gam.
Proof.
  assert (g0 := gam_pos). induction r as [|r IH]; intros p seen drawn x H.
  - cbn [solver] in H. subst x. unfold guess. destruct (G seen) as [[j s]|]; cbn; lra.
  - destruct (solver_sig lg h WT WT0 TWT A (guess r) (S r) p seen drawn) as (x1 & H1 & _). destruct (solver_sig lg h WT WT0 TWT A (guess_at r) (S r) p seen drawn) as (x2 & H2 & _).
    assert (U : x <= x1 + x2).
    { refine (union_le lg h WT WT0 A (guess (S r)) (guess r) (guess_at r) (fun _ _ _ => True) (fun _ _ _ _ _ _ _ => I) _ (S r) p seen drawn x x1 x2 I H H1 H2).
      intros sn dn _ Q. unfold guess, guess_at in *. destruct (G sn) as [[j s]|]; [|discriminate]. apply Bool.andb_true_iff in Q. destruct Q as [Q1 Q2]. rewrite Q2, !Bool.andb_true_r. apply Nat.ltb_lt in Q1. rewrite Nat.ltb_lt, Nat.eqb_eq. lia. }
    assert (U2 := guess_at_le r p seen drawn x2 H2). rewrite S_INR. assert (U1 : x1 <= INR r * gam); [|lra].
    assert (R0 : 0 <= INR r * gam) by (apply Rmult_le_pos; [apply pos_INR|exact g0]). cbn [solver] in H1. destruct (A seen) as [salt msg|msg sig].
    + destruct (in_dec _ (salt ++ msg) p) as [|]; [exact (IH _ _ _ _ H1)|]. destruct H1 as (y & Hy & Ty). apply (draw_le lg WT WT0 TWT y); [exact R0|exact Ty|]. intros s _. exact (IH _ _ _ _ (Hy s)).
    + destruct H1 as (z & Hz & ->). rewrite <- (mean_const 40 (INR r * gam)). apply mean_mono. intros sa. destruct (Hz sa) as (y & Hy & Ty). apply (draw_le lg WT WT0 TWT y); [exact R0|exact Ty|]. intros s _. exact (IH _ _ _ _ (Hy s)).
Qed.
End Guess.
