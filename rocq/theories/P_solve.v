(** P_solve.v -- the experiment [solver]: the probability exists and is unique; unions of events, events that exclude each other; a drawn vector is hard to guess from its point. *)
From Verif Require Import Base Spec SpecT SpecU SpecV SpecX SpecR SpecS SpecG SpecJ SpecH SpecM M_ff M_codec M_ntt M_sig M_verify M_float M_exact M_samp M_fft M_ntru M_tree P_prob P_gsum P_jprob P_jgauss P_jkey P_jcoset P_kubx P_widek P_sim P_fitm P_fits P_vers P_simsig P_loopk P_adapt P_rom.
From Coq Require Import Lra.
Open Scope R_scope.
Notation vec := (list Z * list Z)%type.

Lemma mean_mono n f g : (forall s, f s <= g s) -> mean n f <= mean n g.
Proof. intros H. rewrite !mean_avg. apply avg_mono. intros s _ _. apply H. Qed.
Lemma mean_plus n f g : mean n (fun s => f s + g s) = mean n f + mean n g.
Proof. rewrite !mean_avg. apply avg_plus. Qed.
Lemma mean_const n a : mean n (fun _ => a) = a.
Proof. rewrite mean_avg. apply avg_const. Qed.
Lemma mean_lsum {I} n (f : I -> list Z -> R) : forall S, lsum (fun i => mean n (f i)) S = mean n (fun s => lsum (fun i => f i s) S).
Proof.
  induction S as [|i S IH]; [symmetry; exact (mean_const n 0)|]. change (lsum (fun i => mean n (f i)) (i :: S)) with (mean n (f i) + lsum (fun i => mean n (f i)) S). rewrite IH, <- mean_plus. reflexivity.
Qed.
Lemma total_lsum {X I} (dec : forall x y : X, {x = y} + {x <> y}) (d : X -> Prop) (f : I -> X -> R) (G : I -> R) : (forall i x, 0 <= f i x) -> (forall i, total d (f i) (G i)) -> forall S, total d (fun x => lsum (fun i => f i x) S) (lsum G S).
Proof.
  intros f0 T. induction S as [|i S IH]; [apply total_zero|]. change (lsum G (i :: S)) with (G i + lsum G S). apply (total_ext_fun d (fun x => f i x + lsum (fun i => f i x) S)); [reflexivity|].
  apply (total_plus dec); [apply f0| |apply T|exact IH]. intros x. clear IH. induction S as [|j S IH]; [unfold lsum; cbn; lra|]. unfold lsum in *. cbn [fold_right]. assert (Q := f0 j x). lra.
Qed.

Section Solve.
Variables (lg : nat) (h : list Z) (WT : R) (WT0 : 0 < WT) (TWT : total (pairN lg) (fun s => wts lg s) WT).
Variable A : view -> request.
Notation slv E := (solver lg h WT A E).
Lemma draw_sig (y : vec -> R) : (forall s, 0 <= y s <= 1) -> {z | total (pairN lg) (fun s => wts lg s / WT * y s) z /\ 0 <= z <= 1}.
Proof.
  intros Y. apply (total_sig (pairN lg) _ (fun s => wts lg s / WT) 1); [|exact (TW1 lg WT WT0 TWT)]. intros s. assert (P := w1_pos lg WT WT0 s). destruct (Y s) as [Y0 Y1].
  split; [apply Rmult_le_pos; lra|]. rewrite <- (Rmult_1_r (wts lg s / WT)) at 2. apply Rmult_le_compat_l; lra.
Qed.
Lemma solver_sig E r : forall p seen drawn, {x | slv E r p seen drawn x /\ 0 <= x <= 1}.
Proof.
  induction r as [|r IH]; intros p seen drawn; cbn [solver].
  - exists (if E seen drawn then 1 else 0). split; [reflexivity|]. destruct (E seen drawn); lra.
  - destruct (A seen) as [salt msg|msg sig].
    + destruct (in_dec (list_eq_dec Z.eq_dec) (salt ++ msg) p) as [|]; [apply IH|]. set (y := fun s => proj1_sig (IH ((salt ++ msg) :: p) ((point_of lg h s, []) :: seen) (s :: drawn))).
      assert (Y : forall s, slv E r ((salt ++ msg) :: p) ((point_of lg h s, []) :: seen) (s :: drawn) (y s) /\ 0 <= y s <= 1) by (intros s; apply (proj2_sig (IH _ _ _))).
      destruct (draw_sig y (fun s => proj2 (Y s))) as (z & Tz & Bz). exists z. split; [|exact Bz]. exists y. split; [intros s; apply Y|exact Tz].
    + set (y := fun sa s => proj1_sig (IH ((sa ++ msg) :: p) ((point_of lg h s, bytes_of lg sa sig s) :: seen) (s :: drawn))).
      assert (Y : forall sa s, slv E r ((sa ++ msg) :: p) ((point_of lg h s, bytes_of lg sa sig s) :: seen) (s :: drawn) (y sa s) /\ 0 <= y sa s <= 1) by (intros sa s; apply (proj2_sig (IH _ _ _))).
      set (T := fun sa => draw_sig (y sa) (fun s => proj2 (Y sa s))). exists (mean 40 (fun sa => proj1_sig (T sa))). split.
      * exists (fun sa => proj1_sig (T sa)). split; [|reflexivity]. intros sa. exists (y sa). split; [intros s; apply Y|apply (proj2_sig (T sa))].
      * apply mean_in01. intros sa. apply (proj2_sig (T sa)).
Qed.
Lemma solver_unique E r : forall p seen drawn x x', slv E r p seen drawn x -> slv E r p seen drawn x' -> x = x'.
Proof.
  induction r as [|r IH]; intros p seen drawn x x' H H'; cbn [solver] in H, H'; [congruence|]. destruct (A seen) as [salt msg|msg sig].
  - destruct (in_dec _ (salt ++ msg) p) as [|]; [exact (IH _ _ _ _ _ H H')|]. destruct H as (y & Hy & Ty). destruct H' as (y' & Hy' & Ty').
    apply (total_unique _ _ _ _ Ty). apply (total_ext_fun _ (fun s => wts lg s / WT * y' s)); [|exact Ty']. intros s. f_equal. symmetry. exact (IH _ _ _ _ _ (Hy s) (Hy' s)).
  - destruct H as (z & Hz & ->). destruct H' as (z' & Hz' & ->). apply mean_ext. intros sa. destruct (Hz sa) as (y & Hy & Ty). destruct (Hz' sa) as (y' & Hy' & Ty').
    apply (total_unique _ _ _ _ Ty). apply (total_ext_fun _ (fun s => wts lg s / WT * y' s)); [|exact Ty']. intros s. f_equal. symmetry. exact (IH _ _ _ _ _ (Hy s) (Hy' s)).
Qed.
Lemma solver_01 E r p seen drawn x : slv E r p seen drawn x -> 0 <= x <= 1.
Proof. intros H. destruct (solver_sig E r p seen drawn) as (x' & H' & B). rewrite (solver_unique E r p seen drawn x x' H H'). exact B. Qed.

Lemma w_scal (y y' : vec -> R) s : y s <= y' s -> wts lg s / WT * y s <= wts lg s / WT * y' s.
Proof. intros H. apply Rmult_le_compat_l; [left; apply (w1_pos lg WT WT0)|exact H]. Qed.
Lemma draw_le (y : vec -> R) z b : 0 <= b -> total (pairN lg) (fun s => wts lg s / WT * y s) z -> (forall s, pairN lg s -> y s <= b) -> z <= b.
Proof.
  intros b0 T H. apply (total_ub _ _ _ _ T). intros L NL DL. rewrite Forall_forall in DL. apply Rle_trans with (lsum (fun s => b * (wts lg s / WT)) L).
  - apply lsum_le. intros s Hs. rewrite (Rmult_comm b). apply (w_scal y (fun _ => b)). apply H, DL, Hs.
  - rewrite lsum_scal. rewrite <- (Rmult_1_r b) at 2. apply Rmult_le_compat_l; [exact b0|]. apply (total_le _ _ _ L (TW1 lg WT WT0 TWT) NL). apply Forall_forall. exact DL.
Qed.
Lemma draw_union (y y1 y2 : vec -> R) z z1 z2 : total (pairN lg) (fun s => wts lg s / WT * y s) z -> total (pairN lg) (fun s => wts lg s / WT * y1 s) z1 -> total (pairN lg) (fun s => wts lg s / WT * y2 s) z2 ->
  (forall s, pairN lg s -> y s <= y1 s + y2 s) -> z <= z1 + z2.
Proof.
  intros T T1 T2 H. apply (total_ub _ _ _ _ T). intros L NL DL. apply Rle_trans with (lsum (fun s => wts lg s / WT * y1 s) L + lsum (fun s => wts lg s / WT * y2 s) L).
  - rewrite <- lsum_plus. apply lsum_le. intros s Hs. rewrite <- Rmult_plus_distr_l. apply (w_scal y (fun s => y1 s + y2 s)). rewrite Forall_forall in DL. apply H, DL, Hs.
  - apply Rplus_le_compat; [exact (total_le _ _ _ L T1 NL DL)|exact (total_le _ _ _ L T2 NL DL)].
Qed.

(** the entries that a step can add *)
Definition step_entry (e : list Z * list Z) (s : vec) : Prop := (e = ([], []) /\ s = ([], [])) \/ (pairN lg s /\ fst e = point_of lg h s).
Lemma union_le E E1 E2 (Inv : nat -> view -> list vec -> Prop) :
  (forall r seen drawn e s, Inv (S r) seen drawn -> step_entry e s -> Inv r (e :: seen) (s :: drawn)) ->
  (forall seen drawn, Inv O seen drawn -> E seen drawn = true -> E1 seen drawn = true \/ E2 seen drawn = true) ->
  forall r p seen drawn x x1 x2, Inv r seen drawn -> slv E r p seen drawn x -> slv E1 r p seen drawn x1 -> slv E2 r p seen drawn x2 -> x <= x1 + x2.
Proof.
  intros ST FI. induction r as [|r IH]; intros p seen drawn x x1 x2 HI H H1 H2; cbn [solver] in H, H1, H2.
  - subst. assert (Q := FI seen drawn HI). destruct (E seen drawn), (E1 seen drawn), (E2 seen drawn); try lra; destruct (Q eq_refl); discriminate.
  - destruct (A seen) as [salt msg|msg sig].
    + destruct (in_dec _ (salt ++ msg) p) as [|]; [refine (IH _ _ _ _ _ _ _ H H1 H2); apply ST; [exact HI|left; split; reflexivity]|].
      destruct H as (y & Hy & Ty). destruct H1 as (y1 & Hy1 & Ty1). destruct H2 as (y2 & Hy2 & Ty2). apply (draw_union y y1 y2 _ _ _ Ty Ty1 Ty2). intros s Ps.
      refine (IH _ _ _ _ _ _ _ (Hy s) (Hy1 s) (Hy2 s)). apply ST; [exact HI|]. right. split; [exact Ps|reflexivity].
    + destruct H as (z & Hz & ->). destruct H1 as (z1 & Hz1 & ->). destruct H2 as (z2 & Hz2 & ->). rewrite <- mean_plus. apply mean_mono. intros sa.
      destruct (Hz sa) as (y & Hy & Ty). destruct (Hz1 sa) as (y1 & Hy1 & Ty1). destruct (Hz2 sa) as (y2 & Hy2 & Ty2). apply (draw_union y y1 y2 _ _ _ Ty Ty1 Ty2). intros s Ps.
      refine (IH _ _ _ _ _ _ _ (Hy s) (Hy1 s) (Hy2 s)). apply ST; [exact HI|]. right. split; [exact Ps|reflexivity].
Qed.
Lemma never r : forall p seen drawn x, slv (fun _ _ => false) r p seen drawn x -> x = 0.
Proof.
  induction r as [|r IH]; intros p seen drawn x H; cbn [solver] in H; [exact H|].
  assert (Z0 : forall (y : vec -> R) z, (forall s, y s = 0) -> total (pairN lg) (fun s => wts lg s / WT * y s) z -> z = 0).
  { intros y z Hy T. apply (total_unique _ _ _ _ T). apply (total_ext_fun _ (fun _ => 0)); [intros s; rewrite Hy; ring|apply total_zero]. }
  destruct (A seen) as [salt msg|msg sig].
  - destruct (in_dec _ (salt ++ msg) p) as [|]; [exact (IH _ _ _ _ H)|]. destruct H as (y & Hy & Ty). apply (Z0 y); [|exact Ty]. intros s. exact (IH _ _ _ _ (Hy s)).
  - destruct H as (z & Hz & ->). rewrite <- (mean_const 40 0). apply mean_ext. intros sa. destruct (Hz sa) as (y & Hy & Ty). apply (Z0 y); [|exact Ty]. intros s. exact (IH _ _ _ _ (Hy s)).
Qed.
Lemma implies_le E E1 (Inv : nat -> view -> list vec -> Prop) :
  (forall r seen drawn e s, Inv (S r) seen drawn -> step_entry e s -> Inv r (e :: seen) (s :: drawn)) ->
  (forall seen drawn, Inv O seen drawn -> E seen drawn = true -> E1 seen drawn = true) ->
  forall r p seen drawn x x1, Inv r seen drawn -> slv E r p seen drawn x -> slv E1 r p seen drawn x1 -> x <= x1.
Proof.
  intros ST FI r p seen drawn x x1 HI H H1. destruct (solver_sig (fun _ _ => false) r p seen drawn) as (x2 & H2 & _). assert (Z2 := never r p seen drawn x2 H2).
  assert (Q := union_le E E1 (fun _ _ => false) Inv ST (fun a b I1 I2 => or_introl (FI a b I1 I2)) r p seen drawn x x1 x2 HI H H1 H2). lra.
Qed.
(** events that exclude each other; the lists of drawn vectors may differ *)
Lemma disjoint_sum {I} (E : I -> view -> list vec -> bool) (S : list I) : (forall seen (d : I -> list vec), lsum (fun i => if E i seen (d i) then 1 else 0) S <= 1) ->
  forall r p seen (drawn : I -> list vec) (x : I -> R), (forall i, slv (E i) r p seen (drawn i) (x i)) -> lsum x S <= 1.
Proof.
  intros FI. induction r as [|r IH]; intros p seen drawn x H; cbn [solver] in H.
  - rewrite (lsum_ext _ (fun i => if E i seen (drawn i) then 1 else 0)) by (intros i _; apply H). apply FI.
  - assert (D1 : forall (y : I -> vec -> R) z, (forall i s, 0 <= y i s) -> (forall i, total (pairN lg) (fun s => wts lg s / WT * y i s) (z i)) -> (forall s, lsum (fun i => y i s) S <= 1) -> lsum z S <= 1).
    { intros y z y0 T Hy. assert (TT := total_lsum pair_dec (pairN lg) (fun i s => wts lg s / WT * y i s) z (fun i s => Rmult_le_pos _ _ (Rlt_le _ _ (w1_pos lg WT WT0 s)) (y0 i s)) T S).
      apply (draw_le (fun s => lsum (fun i => y i s) S)); [lra| |intros s _; apply Hy]. eapply total_ext_fun; [|exact TT]. intros s. cbv beta. rewrite lsum_scal. reflexivity. }
    destruct (A seen) as [salt msg|msg sig].
    + destruct (in_dec _ (salt ++ msg) p) as [|]; [exact (IH _ _ _ _ H)|].
      set (y := fun i s => proj1_sig (solver_sig (E i) r ((salt ++ msg) :: p) ((point_of lg h s, []) :: seen) (s :: drawn i))).
      assert (Y : forall i s, slv (E i) r ((salt ++ msg) :: p) ((point_of lg h s, []) :: seen) (s :: drawn i) (y i s) /\ 0 <= y i s <= 1) by (intros i s; apply (proj2_sig (solver_sig (E i) r _ _ _))).
      apply (D1 y x); [intros i s; apply Y| |].
      * intros i. destruct (H i) as (y' & Hy' & Ty'). eapply total_ext_fun; [|exact Ty']. intros s. cbv beta. f_equal. exact (solver_unique _ _ _ _ _ _ _ (Hy' s) (proj1 (Y i s))).
      * intros s. apply (IH ((salt ++ msg) :: p) ((point_of lg h s, []) :: seen) (fun i => s :: drawn i)). intros i. apply Y.
    + set (y := fun sa i s => proj1_sig (solver_sig (E i) r ((sa ++ msg) :: p) ((point_of lg h s, bytes_of lg sa sig s) :: seen) (s :: drawn i))).
      assert (Y : forall sa i s, slv (E i) r ((sa ++ msg) :: p) ((point_of lg h s, bytes_of lg sa sig s) :: seen) (s :: drawn i) (y sa i s) /\ 0 <= y sa i s <= 1) by (intros sa i s; apply (proj2_sig (solver_sig (E i) r _ _ _))).
      set (z := fun i sa => proj1_sig (draw_sig (y sa i) (fun s => proj2 (Y sa i s)))). assert (Tz : forall i sa, total (pairN lg) (fun s => wts lg s / WT * y sa i s) (z i sa)) by (intros i sa; apply (proj2_sig (draw_sig (y sa i) _))).
      rewrite (lsum_ext _ (fun i => mean 40 (z i))).
      2:{ intros i _. destruct (H i) as (z' & Hz' & ->). apply mean_ext. intros sa. destruct (Hz' sa) as (y' & Hy' & Ty'). apply (total_unique _ _ _ _ Ty'). eapply total_ext_fun; [|exact (Tz i sa)]. intros s. cbv beta. f_equal.
          exact (solver_unique _ _ _ _ _ _ _ (proj1 (Y sa i s)) (Hy' s)). }
      rewrite mean_lsum. rewrite <- (mean_const 40 1). apply mean_mono. intros sa. apply (D1 (y sa)); [intros i s; apply Y|intros i; apply Tz|]. intros s.
      apply (IH ((sa ++ msg) :: p) ((point_of lg h s, bytes_of lg sa sig s) :: seen) (fun i => s :: drawn i)). intros i. apply Y.
Qed.
End Solve.
