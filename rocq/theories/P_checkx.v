(** P_checkx.v -- the NTRU check of the tests on the output of ntru_gen. *)
From Verif Require Import Base Spec SpecR SpecF M_float M_exact M_ieee M_table M_samp M_fft M_ntru M_tree P_verify P_ntru2 P_keygen P_key P_near P_live P_fkey P_fgsx P_ieee M_check P_check.
From Coq Require Import Reals Lra.
Open Scope R_scope.

Lemma sqnorm_coeffs (l : list Z) b : (0 <= b)%Z -> Forall (fun x => Z.abs x <= b)%Z l -> (sqnorm l <= Z.of_nat (length l) * (b * b))%Z.
Proof.
  intros Hb. induction 1 as [|x l Hx Hl IH]; [cbn; lia|]. change (sqnorm (x :: l)) with (x * x + sqnorm l)%Z. cbn [length].
  assert (x * x <= b * b)%Z by (rewrite <- (Z.abs_square x); apply Z.mul_le_mono_nonneg; lia). lia.
Qed.
Lemma check_generated F fin val : accurate F fin val -> (forall z, (-18 <= z <= 19)%Z -> to_i32 F (fadd F (fofz F z) (ffloor F (fofz F 0))) = Ok z) -> forall ztab, table_near F fin val ztab ->
  forall fuel sfuel lg rng pos f0 g0 F0 G0 f g F_ G_ pos', byte_stream rng -> falcon_lg lg ->
  length f0 = (2 ^ lg)%nat -> length g0 = (2 ^ lg)%nat -> length F0 = (2 ^ lg)%nat -> length G0 = (2 ^ lg)%nat ->
  ntru_gen F ztab fuel sfuel lg rng pos f0 g0 F0 G0 = Ok (f, g, F_, G_, pos') ->
  Forall (fun x => Z.abs x <= 3125)%Z F_ -> Forall (fun x => Z.abs x <= 3125)%Z G_ -> check_ntru_eq F ztab lg f g F_ G_ = Ok true.
Proof.
  intros A SE ztab HZ fuel sfuel lg rng pos f0 g0 F0 G0 f g F_ G_ pos' Hr Hlg L1 L2 L3 L4 HG BF BG.
  destruct (ntru_gen_spec F ztab fuel sfuel lg rng pos f0 g0 F0 G0 f g F_ G_ pos' SE Hr Hlg L1 L2 L3 L4 HG) as (Lf & Lg & LF & LG & _ & _ & _ & _ & HN).
  destruct (gen_gs_float F fin val A SE ztab HZ fuel sfuel lg rng pos f0 g0 F0 G0 f g F_ G_ pos' Hr Hlg L1 L2 L3 L4 HG) as [S _].
  assert (N1 := sqnorm_nonneg f). assert (N2 := sqnorm_nonneg g).
  assert (K : (Z.of_nat (2 ^ lg) <= 1024)%Z) by (destruct Hlg as [-> | ->]; cbv; discriminate).
  assert (S1 := sqnorm_coeffs F_ 3125 ltac:(lia) BF). assert (S2 := sqnorm_coeffs G_ 3125 ltac:(lia) BG). rewrite LF in S1. rewrite LG in S2.
  destruct (check_ok F fin val A ztab HZ lg f g F_ G_ (f10 lg Hlg) Lf Lg LF LG ltac:(lia) ltac:(lia) ltac:(lia) ltac:(lia)) as (b & E & Hb).
  rewrite E. f_equal. apply Hb. apply HN; (eapply Forall_impl; [|eassumption]); intros x Hx; cbv beta in Hx |- *; lia.
Qed.
Lemma zsum_zero n (h : nat -> Z) : (forall i, h i = 0%Z) -> zsum n h = 0%Z.
Proof. intros H. induction n as [|n IH]; [reflexivity|]. cbn [zsum]. rewrite IH, H. reflexivity. Qed.
(** the example key: the check accepts it, and rejects zeros in place of F and G *)
Lemma check_k : check_ntru_eq F64 (source_table F64) 9 kf kg kF kG = Ok true.
Proof.
  destruct k_all as (L1 & L2 & L3 & L4 & HN & _). destruct k_sq as (S1 & S2 & S3 & S4).
  destruct (check_ok F64 fin64 val64 accurate64 _ (source_near _ _ _ accurate64) 9 kf kg kF kG ltac:(lia) L1 L2 L3 L4 ltac:(lia) ltac:(lia) ltac:(lia) ltac:(lia)) as (b & E & Hb).
  rewrite E. f_equal. apply Hb. exact HN.
Qed.
Lemma check_k_zero : check_ntru_eq F64 (source_table F64) 9 kf kg (repeat 0%Z 512) (repeat 0%Z 512) = Ok false.
Proof.
  destruct k_all as (L1 & L2 & L3 & L4 & HN & _). destruct k_sq as (S1 & S2 & S3 & S4).
  assert (Z0 : sqnorm (repeat 0%Z 512) = 0%Z) by reflexivity.
  destruct (check_ok F64 fin64 val64 accurate64 _ (source_near _ _ _ accurate64) 9 kf kg (repeat 0%Z 512) (repeat 0%Z 512) ltac:(lia) L1 L2 (repeat_length _ _) (repeat_length _ _) ltac:(lia) ltac:(lia) ltac:(lia) ltac:(lia)) as (b & E & Hb).
  rewrite E. f_equal. destruct b; [|reflexivity]. exfalso. assert (N := proj1 Hb eq_refl). specialize (N 0%nat ltac:(cbn; lia)).
  assert (V : forall a, nth 0 (negacyclic (2 ^ 9) a (repeat 0%Z 512)) 0%Z = 0%Z).
  { intros a. unfold negacyclic. rewrite nth_tab by (cbn; lia). apply zsum_zero. intros i. rewrite !nth_repeat. destruct (Nat.leb _ _); lia. }
  rewrite !V in N. cbn in N. discriminate N.
Qed.
