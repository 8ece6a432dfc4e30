(** P_kub.v -- a pair f, g that key generation can draw and accept, and for which the solver of the NTRU equation divides zero by zero. *)
From Verif Require Import Base Ring Poly Spec SpecR M_ff M_codec P_codec M_ntt P_ntt P_nttx M_float M_ieee M_fft M_table M_ntru P_ntru P_keys P_cplx P_fft P_leaf P_key.
From Coq Require Import Reals Lra Ring_theory Ring.
Open Scope Z_scope.

(** ** sparse polynomials *)
Fixpoint sprk (k : nat) (l : list Z) : list Z := match k with O => l | S m => spr (sprk m l) end.
Lemma sprk_length k l : length l = 4%nat -> length (sprk k l) = (2 ^ (2 + k))%nat.
Proof. intros L. induction k as [|k IH]; cbn [sprk]; [exact L|]. rewrite spr_length, IH. rewrite Nat.add_succ_r. cbn [Nat.pow]. lia. Qed.
Lemma sprk_forall (P : Z -> Prop) k l : P 0 -> Forall P l -> Forall P (sprk k l).
Proof. intros H0 H. induction k as [|k IH]; cbn [sprk]; [exact H|]. apply spr_forall; assumption. Qed.
Lemma sprk_sqnorm k l : sqnorm (sprk k l) = sqnorm l.
Proof. induction k as [|k IH]; cbn [sprk]; [reflexivity|]. rewrite spr_sqnorm. exact IH. Qed.
Lemma sprk_mul k a b : length a = 4%nat -> length b = 4%nat -> negacyclic (2 ^ (2 + k)) (sprk k a) (sprk k b) = sprk k (negacyclic 4 a b).
Proof.
  intros La Lb. induction k as [|k IH]; cbn [sprk]; [reflexivity|]. rewrite Nat.add_succ_r. change (2 ^ S (2 + k))%nat with (2 * 2 ^ (2 + k))%nat. rewrite spr_mul by (apply sprk_length; assumption). rewrite IH. reflexivity.
Qed.
Section Zero.
Context {A : Type} (o i : A) (ad mu su : A -> A -> A) (op : A -> A) (RT : ring_theory o i ad mu su op eq).
Add Ring aring : RT.
Lemma sub_zero a x : su (mu a a) (mu x (mu o o)) = mu a a. Proof. ring. Qed.
End Zero.
(** the field norm of a polynomial in x^2 is a square *)
Lemma norm_spr lg a : length a = (2 ^ lg)%nat -> field_norm (S lg) (spr a) = Ok (negacyclic (2 ^ lg) a a).
Proof.
  intros L. rewrite field_norm_ok by (rewrite spr_length, L; reflexivity). f_equal. rewrite negacyclic_zmul. f_equal. rewrite spr_plift by exact L. set (p := zof (2 ^ lg) a). unfold znorm, pnorm.
  assert (E1 : pev Z 0 (plift Z 0 p) = p). { apply (pv_ext Z 0). intros i Hi. unfold pev. rewrite pc_mkp by exact Hi. apply pc_lift_even. exact Hi. }
  assert (E2 : pod Z 0 (plift Z 0 p) = p0 Z 0). { apply (pv_ext Z 0). intros i Hi. unfold pod, p0. rewrite !pc_mkp by exact Hi. apply pc_lift_odd. exact Hi. }
  rewrite E1, E2. apply (sub_zero _ _ _ _ _ _ (pring Z 0 1 Z.add Z.mul Z.sub Z.opp Zth' (2 ^ lg))).
Qed.
Definition sq4 (l : list Z) : list Z := negacyclic 4 l l.
Fixpoint sqk (k : nat) (l : list Z) : list Z := match k with O => l | S m => sqk m (sq4 l) end.
Lemma sq4_length l : length (sq4 l) = 4%nat. Proof. unfold sq4. rewrite negacyclic_zmul. apply pl_length. Qed.
Lemma solve_sprk F ztab fuel k : forall p r, length p = 4%nat -> length r = 4%nat -> ntru_solve F ztab fuel 2 (sqk k p) (sqk k r) = UB -> ntru_solve F ztab fuel (2 + k) (sprk k p) (sprk k r) = UB.
Proof.
  induction k as [|k IH]; intros p r Lp Lr H; cbn [sprk sqk] in *; [exact H|]. rewrite Nat.add_succ_r. cbn [ntru_solve]. rewrite !norm_spr by (apply sprk_length; assumption). cbn [bind].
  rewrite !sprk_mul by assumption. fold (sq4 p). fold (sq4 r). rewrite IH by (try apply sq4_length; exact H). reflexivity.
Qed.

(** ** the pair *)
Definition pf4 : list Z := [1; 0; 1; 0].
Definition pg9 : list Z := [79; -65; -66; -39].
Lemma ub_lg2 : ntru_solve F64 (source_table F64) 400 2 (sqk 7 pf4) (sqk 7 pg9) = UB.
Proof. vm_compute. reflexivity. Qed.
Lemma ub_512 : ntru_solve F64 (source_table F64) 400 9 (sprk 7 pf4) (sprk 7 pg9) = UB.
Proof. exact (solve_sprk F64 (source_table F64) 400 7 pf4 pg9 eq_refl eq_refl ub_lg2). Qed.

Lemma inv_sprk k : falcon_lg (2 + k) -> is_poly_invertible (2 + k) (sprk k pf4) = Ok true.
Proof.
  intros Hlg. assert (S1 : Forall smallq (sprk k pf4)) by (apply sprk_forall; [unfold smallq, q; lia|repeat constructor; unfold smallq, q; lia]).
  destruct (is_poly_invertible_spec (2 + k) (sprk k pf4) Hlg (sprk_length k pf4 eq_refl) S1) as (b & E & H). rewrite E. f_equal. apply H.
  exists (sprk k [6145; 0; 6144; 0]). split; [apply sprk_length; reflexivity|]. rewrite sprk_mul by reflexivity.
  assert (Hk : k = 7%nat \/ k = 8%nat) by (destruct Hlg; lia). destruct Hk as [-> | ->]; vm_compute; reflexivity.
Qed.
Open Scope R_scope.
Lemma sprk_horner k l x : horner (map Cz (sprk k l)) (cis x) = horner (map Cz l) (cis (2 ^ k * x)).
Proof.
  revert x. induction k as [|k IH]; intros x; cbn [sprk pow]; [rewrite Rmult_1_l; reflexivity|]. rewrite spr_horner, cis_sq, IH. f_equal. f_equal. ring.
Qed.
Lemma row4 t a b c d : cos (2 * t) = 0 -> exists u, u * u = 2 /\ mod2 (horner (map Cz [a; b; c; d]%Z) (cis t)) = IZR (a * a + b * b + c * c + d * d) + u * IZR (a * b + b * c + c * d - a * d).
Proof.
  intros H. exists (2 * cos t). assert (C2 := H). rewrite cos_2a_cos in C2. split; [lra|]. rewrite !mod2_cons. cbn [csum map horner]. change (mod2 Czero) with (0 * 0 + 0 * 0).
  assert (E3 : cos (3 * t) = - cos t). { replace (3 * t) with (2 * t + t) by ring. rewrite cos_plus, H, sin_2a. assert (Q := sin2_cos2 t). unfold Rsqr in Q. replace (2 * sin t * cos t * sin t) with (2 * (sin t * sin t) * cos t) by ring. replace (sin t * sin t) with (1 / 2) by lra. lra. }
  replace (INR 1 * t) with t by (simpl; ring). replace (INR 2 * t) with (2 * t) by (simpl; ring). replace (INR 3 * t) with (3 * t) by (simpl; ring). rewrite H, E3.
  rewrite minus_IZR, !plus_IZR, !mult_IZR. ring.
Qed.
Lemma cos_half m : cos (2 * (PI * INR (2 * m + 1) / 4)) = 0.
Proof.
  replace (2 * (PI * INR (2 * m + 1) / 4)) with (PI / 2 + INR m * PI) by (rewrite plus_INR, mult_INR; simpl; field).
  rewrite cos_plus, cos_PI2, sin_PI2. assert (S : sin (INR m * PI) = 0) by (apply sin_eq_0_1; exists (Z.of_nat m); rewrite <- INR_IZR_INZ; reflexivity). rewrite S. ring.
Qed.
Lemma row_k k a b c d a' b' c' d' i : exists u u', u * u = 2 /\ u' * u' = 2 /\ row_norm (2 + k) (sprk k [a; b; c; d]%Z) (sprk k [a'; b'; c'; d']%Z) i =
  IZR (a * a + b * b + c * c + d * d) + u * IZR (a * b + b * c + c * d - a * d) + (IZR (a' * a' + b' * b' + c' * c' + d' * d') + u' * IZR (a' * b' + b' * c' + c' * d' - a' * d')).
Proof.
  unfold row_norm, poly_at, fft_point. rewrite !sprk_horner. set (m := brv (2 + k) i).
  assert (E : 2 ^ k * (PI * INR (2 * m + 1) / INR (2 ^ (2 + k))) = PI * INR (2 * m + 1) / 4). { assert (P : 2 ^ k <> 0) by (apply pow_nonzero; lra). rewrite pow_INR, pow_add. replace (INR 2) with 2 by (simpl; ring). replace (2 ^ 2) with 4 by ring. field. exact P. }
  rewrite E. destruct (row4 _ a b c d (cos_half m)) as (u & U & E1). destruct (row4 _ a' b' c' d' (cos_half m)) as (u' & U' & E2). exists u, u'. split; [exact U|]. split; [exact U'|]. rewrite E1, E2. reflexivity.
Qed.
Lemma root2 u : u * u = 2 -> -1415 / 1000 <= u <= 1415 / 1000.
Proof. intros H. split; apply Rnot_lt_le; intros L; nra. Qed.
Lemma row_9 i : 9000 <= row_norm 9 (sprk 7 pf4) (sprk 7 pg9) i.
Proof. destruct (row_k 7 1 0 1 0 79 (-65) (-66) (-39) i) as (u & u' & U & U' & E). change (row_norm 9 (sprk 7 pf4) (sprk 7 pg9) i) with (row_norm (2 + 7) (sprk 7 [1; 0; 1; 0]%Z) (sprk 7 [79; -65; -66; -39]%Z) i). rewrite E. apply root2 in U, U'. cbn -[IZR]. lra. Qed.
Lemma gs_k lg f g : (forall i, 9000 <= row_norm lg f g i) -> (sqnorm f + sqnorm g <= 16800)%Z -> gs_norm lg f g <= 168224 / 10.
Proof.
  intros HR HS. unfold gs_norm. apply Rmax_lub; [apply IZR_le in HS; lra|]. unfold gs_second. change (IZR (q * q)) with 151019521.
  assert (E : forall n, Rsigma n (fun i => 151019521 / row_norm lg f g i) <= INR n * (151019521 / 9000)).
  { induction n as [|n IH]; [simpl; lra|]. cbn [Rsigma]. rewrite S_INR. assert (X : 151019521 / row_norm lg f g n <= 151019521 / 9000).
    { unfold Rdiv. apply Rmult_le_compat_l; [lra|]. apply Rinv_le_contravar; [lra|apply HR]. } lra. }
  specialize (E (2 ^ lg)%nat). assert (P : 0 < INR (2 ^ lg)) by (apply lt_0_INR; apply Nat.neq_0_lt_0, Nat.pow_nonzero; lia).
  apply Rle_trans with (151019521 / 9000); [|lra]. apply Rmult_le_reg_r with (INR (2 ^ lg)); [exact P|]. unfold Rdiv at 1. rewrite Rmult_assoc, Rinv_l by lra. lra.
Qed.
