(** P_adapt.v -- many signatures on messages that are chosen as one goes along can be simulated without the secret key. *)
From Verif Require Import Base Spec SpecT SpecU SpecR SpecS SpecG SpecJ SpecH SpecM M_ff M_codec M_ntt M_sig M_verify M_float M_exact M_samp M_fft M_ntru M_tree P_prob P_gsum P_jprob P_jgauss P_jkey P_jcoset P_kubx P_widek P_sim P_fitm P_fits P_vers P_simsig P_loopk.
From Verif Require P_genlaw P_key.
From Coq Require Import Lra.
Open Scope R_scope.

Lemma avg_swap n m : forall f : list Z -> list Z -> R, avg n (fun u => avg m (fun s => f u s)) = avg m (fun s => avg n (fun u => f u s)).
Proof.
  induction n as [|n IH]; intros f; [reflexivity|]. cbn [avg]. rewrite (rsum_ext 256 _ (fun b => avg m (fun s => avg n (fun u => f (Z.of_nat b :: u) s)))) by (intros b _; apply (IH (fun u s => f (Z.of_nat b :: u) s))).
  rewrite <- avg_rsum. unfold Rdiv. rewrite Rmult_comm, <- avg_scal. apply avg_ext. intros s _ _. apply Rmult_comm.
Qed.

Section Sums.
Context {X : Type}.
Variable dec : forall x y : X, {x = y} + {x <> y}.
Variable d : X -> Prop.
Lemma total_zero : total d (fun _ => 0) 0.
Proof.
  assert (Z0 : forall L : list X, lsum (fun _ => 0) L = 0) by (induction L as [|a L IH]; [reflexivity|]; unfold lsum in *; cbn [fold_right]; rewrite IH; ring). split.
  - intros x (L & _ & _ & ->). change (lsum (fun _ : X => 0) L <= 0). rewrite Z0. lra.
  - intros b Hb. apply Hb. exists []. split; [constructor|]. split; [constructor|reflexivity].
Qed.
Lemma total_plus (f g : X -> R) F G : (forall x, 0 <= f x) -> (forall x, 0 <= g x) -> total d f F -> total d g G -> total d (fun x => f x + g x) (F + G).
Proof.
  intros f0 g0 TF TG. split.
  - intros x (L & NL & DL & ->). change (lsum (fun x => f x + g x) L <= F + G). rewrite lsum_plus. apply Rplus_le_compat; [apply (total_le d f F L TF NL DL)|apply (total_le d g G L TG NL DL)].
  - intros b Hb. enough (F <= b - G) by lra. apply (total_ub d f F _ TF). intros L1 N1 D1. enough (G <= b - lsum f L1) by lra. apply (total_ub d g G _ TG). intros L2 N2 D2.
    set (L := nodup dec (L1 ++ L2)). assert (NL : NoDup L) by apply NoDup_nodup.
    assert (DL : Forall d L). { apply Forall_forall. intros x Hx. apply nodup_In, in_app_iff in Hx. rewrite Forall_forall in D1, D2. destruct Hx; auto. }
    assert (HL : lsum (fun x => f x + g x) L <= b) by (apply Hb; exists L; split; [exact NL|]; split; [exact DL|reflexivity]). rewrite lsum_plus in HL.
    assert (A1 : lsum f L1 <= lsum f L) by (apply (lsum_incl f dec f0); [exact N1|]; intros x Hx; left; apply nodup_In, in_app_iff; left; exact Hx).
    assert (A2 : lsum g L2 <= lsum g L) by (apply (lsum_incl g dec g0); [exact N2|]; intros x Hx; left; apply nodup_In, in_app_iff; right; exact Hx). lra.
Qed.
Lemma total_scal (f : X -> R) F a : 0 <= a -> total d f F -> total d (fun x => a * f x) (a * F).
Proof.
  intros a0 T. destruct (Req_dec a 0) as [->|a1].
  - rewrite Rmult_0_l. apply (total_ext_fun d (fun _ => 0)); [intros; ring|]. apply total_zero.
  - split.
    + intros x (L & NL & DL & ->). change (lsum (fun x => a * f x) L <= a * F). rewrite lsum_scal. apply Rmult_le_compat_l; [exact a0|]. apply (total_le d f F L T NL DL).
    + intros b Hb. assert (ap : 0 < a) by lra. apply (Rmult_le_reg_l (/ a)); [apply Rinv_0_lt_compat; exact ap|]. rewrite <- Rmult_assoc, Rinv_l, Rmult_1_l by exact a1.
      apply (total_ub d f F _ T). intros L NL DL. apply (Rmult_le_reg_l a); [exact ap|]. rewrite <- Rmult_assoc, Rinv_r, Rmult_1_l by exact a1. rewrite <- lsum_scal. apply Hb. exists L. split; [exact NL|]. split; [exact DL|reflexivity].
Qed.
Lemma total_rsum n (f : nat -> X -> R) G : (forall b x, 0 <= f b x) -> (forall b, total d (f b) (G b)) -> total d (fun x => rsum n (fun b => f b x)) (rsum n G).
Proof.
  intros f0 T. induction n as [|n IH]; [exact total_zero|]. cbn [rsum]. apply total_plus; [|intros x; apply f0|exact IH|apply T].
  intros x. clear IH. induction n as [|n IH]; cbn [rsum]; [lra|]. assert (Q := f0 n x). lra.
Qed.
Lemma total_avg n : forall (f : list Z -> X -> R) G, (forall v x, 0 <= f v x) -> (forall v, total d (f v) (G v)) -> total d (fun x => avg n (fun v => f v x)) (avg n G).
Proof.
  induction n as [|n IH]; intros f G f0 T; [apply T|]. cbn [avg]. unfold Rdiv. rewrite Rmult_comm. apply (total_ext_fun d (fun x => / 256 * rsum 256 (fun b => avg n (fun v => f (Z.of_nat b :: v) x)))); [intros; apply Rmult_comm|].
  apply total_scal; [lra|]. apply total_rsum.
  - intros b x. apply Rle_trans with (avg n (fun _ => 0)); [rewrite avg_const; lra|]. apply avg_mono. intros; apply f0.
  - intros b. apply (IH (fun v => f (Z.of_nat b :: v)) (fun v => G (Z.of_nat b :: v))); [intros; apply f0|intros; apply T].
Qed.
Lemma total_ind (t : X -> bool) (f : X -> R) F : (forall x, 0 <= f x) -> total (fun x => d x /\ t x = true) f F -> total d (fun x => f x * P_prob.ind (t x)) F.
Proof.
  intros f0 T. split.
  - intros x (L & NL & DL & ->). change (lsum (fun x => f x * P_prob.ind (t x)) L <= F). rewrite (lsum_part t). rewrite Forall_forall in DL.
    rewrite (lsum_ext _ f (filter t L)) by (intros x Hx; apply filter_In in Hx; rewrite (proj2 Hx); cbn; ring).
    rewrite (lsum_ext _ (fun _ => 0) (filter (fun x => negb (t x)) L)) by (intros x Hx; apply filter_In in Hx; destruct Hx as [_ Hx]; apply Bool.negb_true_iff in Hx; rewrite Hx; cbn; ring).
    replace (lsum (fun _ : X => 0) _) with 0 by (symmetry; apply P_genlaw.lsum_zero; reflexivity). rewrite Rplus_0_r. apply (total_le _ f F _ T); [apply NoDup_filter; exact NL|]. apply Forall_forall. intros x Hx. apply filter_In in Hx. split; [apply DL|]; apply Hx.
  - intros b Hb. apply (total_ub _ f F _ T). intros L NL DL. rewrite (lsum_ext f (fun x => f x * P_prob.ind (t x))).
    + apply Hb. exists L. split; [exact NL|]. split; [eapply Forall_impl; [|exact DL]; intros x H; apply H|reflexivity].
    + intros x Hx. rewrite Forall_forall in DL. rewrite (proj2 (DL x Hx)). cbn. ring.
Qed.
Lemma total_close (f g w : X -> R) F G W e : 0 <= e -> total d f F -> total d g G -> total d w W -> (forall x, f x <= g x + e * w x) -> F <= G + e * W.
Proof.
  intros e0 TF TG TW H. apply (total_ub d f F _ TF). intros L NL DL. apply Rle_trans with (lsum g L + e * lsum w L).
  - rewrite <- lsum_scal, <- lsum_plus. apply lsum_le. intros x _. apply H.
  - apply Rplus_le_compat; [apply (total_le d g G L TG NL DL)|]. apply Rmult_le_compat_l; [exact e0|]. apply (total_le d w W L TW NL DL).
Qed.
Lemma total_sig (f w : X -> R) W : (forall x, 0 <= f x <= w x) -> total d w W -> {F | total d f F /\ 0 <= F <= W}.
Proof.
  intros H T. assert (B : forall L, NoDup L -> Forall d L -> lsum f L <= W). { intros L NL DL. apply Rle_trans with (lsum w L); [apply lsum_le; intros; apply H|apply (total_le d w W L T NL DL)]. }
  destruct (completeness (fun x => exists l, NoDup l /\ Forall d l /\ x = fold_right (fun a r => f a + r) 0 l)) as [F HF].
  - exists W. intros x (L & NL & DL & ->). apply B; assumption.
  - exists 0, []. split; [constructor|]. split; [constructor|reflexivity].
  - exists F. split; [exact HF|]. split; [|apply (total_ub d f F W HF B)]. exact (total_le d f F [] HF (NoDup_nil _) (Forall_nil _)).
Qed.
Lemma total_exs (f : X -> R) b : (forall L, NoDup L -> Forall d L -> lsum f L <= b) -> {F | total d f F}.
Proof.
  intros B. destruct (completeness (fun x => exists l, NoDup l /\ Forall d l /\ x = fold_right (fun a r => f a + r) 0 l)) as [F HF].
  - exists b. intros x (L & NL & DL & ->). apply B; assumption.
  - exists 0, []. split; [constructor|]. split; [constructor|reflexivity].
  - exists F. exact HF.
Qed.
End Sums.

Section Adapt.
Variables (lg : nat) (Hlg : falcon_lg lg) (h : list Z) (WT : R) (WT0 : 0 < WT) (TWT : total (pairN lg) (fun s => wts lg s) WT).
Variables (A : history -> list Z * list Z * list Z) (D : history -> bool).
Hypothesis HA : forall seen, let '(msg, salt, sig) := A seen in length salt = 40%nat /\ bytes salt /\ bytes sig /\ (sig_bytes lg + 2 <= length sig)%nat.

Lemma TW1 : total (pairN lg) (fun s => wts lg s / WT) 1.
Proof. replace 1 with (/ WT * WT) by (field; lra). apply (total_ext_fun _ (fun s => / WT * wts lg s)); [intros; unfold Rdiv; ring|]. apply total_scal; [left; apply Rinv_0_lt_compat; exact WT0|exact TWT]. Qed.
Lemma w1_pos s : 0 < wts lg s / WT.
Proof. apply Rdiv_lt_0_compat; [apply exp_pos|exact WT0]. Qed.
Lemma sim_sig r : forall seen, {x | simulated lg h WT A D r seen x /\ 0 <= x <= 1}.
Proof.
  induction r as [|r IH]; intros seen; cbn [simulated].
  - exists (if D seen then 1 else 0). split; [reflexivity|]. destruct (D seen); lra.
  - destruct (A seen) as [[msg salt] sig]. set (y := fun s => proj1_sig (IH ((point_of lg h s, bytes_of lg salt sig s) :: seen))).
    assert (Y : forall s, simulated lg h WT A D r ((point_of lg h s, bytes_of lg salt sig s) :: seen) (y s) /\ 0 <= y s <= 1) by (intros s; apply (proj2_sig (IH _))).
    destruct (total_sig (pairN lg) (fun s => wts lg s / WT * y s) (fun s => wts lg s / WT) 1) as (x & Tx & Bx); [|exact TW1|].
    + intros s. assert (P := w1_pos s). destruct (Y s) as [_ [Y0 Y1]]. split; [apply Rmult_le_pos; lra|]. rewrite <- (Rmult_1_r (wts lg s / WT)) at 2. apply Rmult_le_compat_l; lra.
    + exists x. split; [|exact Bx]. exists y. split; [intros s; apply Y|exact Tx].
Qed.
Variables (f g F_ G_ h0 : list Z).
Hypotheses (HS : sound_key lg f g F_ G_) (Lh : length h0 = (2 ^ lg)%nat) (HK : compute_public_key lg f g h0 = Ok h).
Variable skey : list Z.
Hypothesis HD : decode_skey lg skey (repeat 0%Z (2 ^ lg)) (repeat 0%Z (2 ^ lg)) (repeat 0%Z (2 ^ lg)) = Ok (true, (f, g, F_)).
Variables (k m n : nat).
Hypotheses (Hm : (1 <= m)%nat) (Hn : (36 * k * 2 ^ lg * m <= n)%nat).
Notation dd := (slack lg k).
Notation L := (136 * k + n)%nat.
Lemma requests_near r : forall seen x, simulated lg h WT A D r seen x -> Rabs (prob (r * L) (requests lg skey k m n A D r seen) - x) <= INR r * dd.
Proof.
  induction r as [|r IH]; intros seen x Hx.
  - cbn [simulated] in Hx. subst x. rewrite Nat.mul_0_l, prob_avg. cbn [avg requests INR]. rewrite Rmult_0_l. unfold P_prob.ind. rewrite Rminus_diag_eq by reflexivity. rewrite Rabs_R0. lra.
  - cbn [simulated] in Hx. assert (HA' := HA seen). destruct (A seen) as [[msg salt] sig] eqn:EA. destruct Hx as (y & Hy & Tx). destruct HA' as (Lsa & Bsa & Bsg & Ls).
    set (Dv := fun v c e => requests lg skey k m n A D r ((c, e) :: seen) v).
    set (real := fun v w => let xof := fun _ : list Z => stream (firstn (136 * k) w) in sees (Dv v) (hash_to_point k xof lg salt msg (repeat 0%Z (2 ^ lg))) (sign RF exact_table m k xof lg skey msg sig (stream (salt ++ skipn (136 * k) w)))).
    assert (E1 : prob (S r * L) (requests lg skey k m n A D (S r) seen) = avg (r * L) (fun v => prob L (real v))).
    { rewrite prob_avg. change (S r * L)%nat with (L + r * L)%nat. rewrite avg_split, avg_swap. apply avg_ext. intros v Lv _. rewrite prob_avg. apply avg_ext. intros w Lw _. cbn [requests]. rewrite EA.
      rewrite firstn_app, skipn_app, Lw, Nat.sub_diag, firstn_O, app_nil_r. rewrite (firstn_all2 w) by lia. rewrite (skipn_all2 w) by lia. reflexivity. }
    set (ph := fun s => prob (r * L) (requests lg skey k m n A D r ((point_of lg h s, bytes_of lg salt sig s) :: seen))).
    assert (WDs : forall v, {WD | total (fun s => pairN lg s /\ Dv v (point_of lg h s) (bytes_of lg salt sig s) = true) (fun s => wts lg s) WD}).
    { intros v. apply (total_exs _ _ WT). intros M NM DM. apply (total_le (pairN lg) _ WT M TWT NM). eapply Forall_impl; [|exact DM]. intros s H; apply H. }
    set (G := fun v => proj1_sig (WDs v)). assert (TG : forall v, total (fun s => pairN lg s /\ Dv v (point_of lg h s) (bytes_of lg salt sig s) = true) (fun s => wts lg s) (G v)) by (intros v; apply (proj2_sig (WDs v))).
    set (Y := avg (r * L) (fun v => G v / WT)).
    assert (TY : total (pairN lg) (fun s => wts lg s / WT * ph s) Y).
    { apply (total_ext_fun _ (fun s => avg (r * L) (fun v => / WT * (wts lg s * P_prob.ind (Dv v (point_of lg h s) (bytes_of lg salt sig s)))))).
      - intros s. unfold ph. rewrite prob_avg, <- avg_scal. apply avg_ext. intros v _ _. unfold Dv, Rdiv. ring.
      - assert (W1 : 0 < / WT) by (apply Rinv_0_lt_compat; exact WT0). unfold Y. apply (total_avg pair_dec (pairN lg) (r * L) (fun v s => / WT * (wts lg s * P_prob.ind (Dv v (point_of lg h s) (bytes_of lg salt sig s)))) (fun v => G v / WT)).
        + intros v s. apply Rmult_le_pos; [lra|]. apply Rmult_le_pos; [left; apply exp_pos|]. destruct (Dv v _ _); cbn; lra.
        + intros v. replace (G v / WT) with (/ WT * G v) by (unfold Rdiv; ring). apply total_scal; [lra|]. apply (total_ind (pairN lg) (fun s => Dv v (point_of lg h s) (bytes_of lg salt sig s))); [intros; left; apply exp_pos|]. apply TG. }
    assert (N1 : forall v, Rabs (prob L (real v) - G v / WT) <= dd).
    { intros v. exact (sees_near lg Hlg h salt sig Lsa Bsa Bsg Ls WT WT0 TWT f g F_ G_ h0 HS Lh HK skey HD msg k m n Hm Hn (Dv v) (G v) (TG v)). }
    assert (N2 : Rabs (avg (r * L) (fun v => prob L (real v)) - Y) <= dd).
    { apply Rabs_le. assert (U1 : avg (r * L) (fun v => prob L (real v)) <= avg (r * L) (fun v => G v / WT + dd)) by (apply avg_mono; intros v _ _; assert (Q := Rabs_def2 _ _ (Rle_lt_trans _ _ _ (N1 v) (Rlt_plus_1 _))); assert (Q' := Rle_trans _ _ _ (Rle_abs _) (N1 v)); lra).
      assert (U2 : avg (r * L) (fun v => G v / WT) <= avg (r * L) (fun v => prob L (real v) + dd)). { apply avg_mono. intros v _ _. assert (Q := N1 v). rewrite Rabs_minus_sym in Q. assert (Q' := Rle_trans _ _ _ (Rle_abs _) Q). lra. }
      rewrite avg_plus, avg_const in U1, U2. fold Y in U1, U2. lra. }
    assert (N3 : forall s, Rabs (ph s - y s) <= INR r * dd) by (intros s; apply IH; apply Hy).
    assert (e0 : 0 <= INR r * dd) by (eapply Rle_trans; [apply Rabs_pos|exact (N3 ([], []))]).
    assert (C1 : Y <= x + INR r * dd * 1). { apply (total_close (pairN lg) (fun s => wts lg s / WT * ph s) (fun s => wts lg s / WT * y s) (fun s => wts lg s / WT)); [exact e0|exact TY|exact Tx|exact TW1|]. intros s. assert (P := w1_pos s). assert (Q := Rle_trans _ _ _ (Rle_abs _) (N3 s)). rewrite (Rmult_comm (INR r * dd)), <- Rmult_plus_distr_l. apply Rmult_le_compat_l; lra. }
    assert (C2 : x <= Y + INR r * dd * 1). { apply (total_close (pairN lg) (fun s => wts lg s / WT * y s) (fun s => wts lg s / WT * ph s) (fun s => wts lg s / WT)); [exact e0|exact Tx|exact TY|exact TW1|]. intros s. assert (P := w1_pos s). assert (Q0 := N3 s). rewrite Rabs_minus_sym in Q0. assert (Q := Rle_trans _ _ _ (Rle_abs _) Q0). rewrite (Rmult_comm (INR r * dd)), <- Rmult_plus_distr_l. apply Rmult_le_compat_l; lra. }
    rewrite E1. replace (avg (r * L) (fun v => prob L (real v)) - x) with ((avg (r * L) (fun v => prob L (real v)) - Y) + (Y - x)) by ring. eapply Rle_trans; [apply Rabs_triang|]. rewrite S_INR.
    assert (Rabs (Y - x) <= INR r * dd) by (apply Rabs_le; lra). lra.
Qed.
End Adapt.
Lemma simulated_unique lg h W A D r : forall seen x x', simulated lg h W A D r seen x -> simulated lg h W A D r seen x' -> x = x'.
Proof.
  induction r as [|r IH]; intros seen x x' H H'; cbn [simulated] in H, H'; [congruence|]. destruct (A seen) as [[msg salt] sig]. destruct H as (y & Hy & Ty). destruct H' as (y' & Hy' & Ty').
  apply (total_unique _ _ _ _ Ty). apply (total_ext_fun _ (fun s => wts lg s / W * y' s)); [|exact Ty']. intros s. f_equal. symmetry. exact (IH _ _ _ (Hy s) (Hy' s)).
Qed.
Theorem adaptive_sim lg : falcon_lg lg ->
  exists W, 0 < W /\ total (fun s => length (fst s) = (2 ^ lg)%nat /\ length (snd s) = (2 ^ lg)%nat) (fun s => exp (- (IZR (sqnorm (fst s) + sqnorm (snd s)) / (2 * (sigma_value RF lg * sigma_value RF lg))))) W /\
  forall h (A : strategy) (D : history -> bool) r, (forall seen, let '(msg, salt, sig) := A seen in length salt = 40%nat /\ bytes salt /\ bytes sig /\ (sig_bytes lg + 2 <= length sig)%nat) ->
  exists x, (forall x', simulated lg h W A D r [] x' <-> x' = x) /\ 0 <= x <= 1 /\
  forall f g F_ G_ h0, sound_key lg f g F_ G_ -> length h0 = (2 ^ lg)%nat -> compute_public_key lg f g h0 = Ok h ->
  forall skey, decode_skey lg skey (repeat 0%Z (2 ^ lg)) (repeat 0%Z (2 ^ lg)) (repeat 0%Z (2 ^ lg)) = Ok (true, (f, g, F_)) ->
  forall k m n, (512 <= k)%nat -> (1 <= m)%nat -> (36 * k * 2 ^ lg * m <= n)%nat ->
  Rabs (prob (r * (136 * k + n)) (requests lg skey k m n A D r []) - x) <= INR r * (if Nat.eqb lg 9 then 1 / 10000 else 13 / 1000).
Proof.
  intros Hlg. destruct (pair_total lg Hlg) as (W & W0 & TW). exists W. split; [exact W0|]. split; [exact TW|]. intros h A D r HA. destruct (sim_sig lg h W W0 TW A D r []) as (x & Hx & Bx). exists x.
  split; [|split; [exact Bx|]].
  - intros x'. split; [intros H; exact (simulated_unique lg h W A D r [] x' x H Hx)|intros ->; exact Hx].
  - intros f g F_ G_ h0 HS Lh HK skey HD k m n Hk Hm Hn. eapply Rle_trans; [exact (requests_near lg Hlg h W W0 TW A D HA f g F_ G_ h0 HS Lh HK skey HD k m n Hm Hn r [] x Hx)|].
    apply Rmult_le_compat_l; [apply pos_INR|]. exact (slack_small lg k Hlg Hk).
Qed.
Lemma adapt_example : let A : strategy := fun seen => (concat (map snd seen), repeat (Z.of_nat (length seen) mod 256)%Z 40, repeat 0%Z 668) in
  (forall seen, let '(msg, salt, sig) := A seen in length salt = 40%nat /\ bytes salt /\ bytes sig /\ (sig_bytes 9 + 2 <= length sig)%nat) /\
  exists h skey, compute_public_key 9 P_key.kf P_key.kg (repeat 0%Z 512) = Ok h /\
    decode_skey 9 skey (repeat 0%Z 512) (repeat 0%Z 512) (repeat 0%Z 512) = Ok (true, (P_key.kf, P_key.kg, P_key.kF)) /\ sound_key 9 P_key.kf P_key.kg P_key.kF P_key.kG.
Proof.
  intros A. split.
  - intros seen. unfold A. split; [apply repeat_length|]. split; [apply Forall_forall; intros x Hx; apply repeat_spec in Hx; subst x; apply Z.mod_pos_bound; lia|].
    split; [apply Forall_forall; intros x Hx; apply repeat_spec in Hx; subst x; unfold byte; lia|]. rewrite repeat_length. apply Nat.leb_le. reflexivity.
  - destruct k_checks as (h & skey & pk & HK & _ & HD & HS & _). exists h, skey. split; [exact HK|]. split; [exact HD|exact HS].
Qed.
