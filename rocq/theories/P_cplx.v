(** P_cplx.v -- complex numbers as a ring, roots of unity. *)
From Verif Require Import Base Ring Poly Spec SpecR P_brv.
From Coq Require Import Ring_theory Ring Lra.
Open Scope R_scope.

Ltac cx := unfold Cadd, Csub, Cmul, Copp, Cconj, Czero, Cone; cbn [fst snd].
Lemma Cx_eq (x y : Cx) : fst x = fst y -> snd x = snd y -> x = y.
Proof. destruct x, y; simpl; intros -> ->; reflexivity. Qed.
Lemma Cring : ring_theory Czero Cone Cadd Cmul Csub Copp eq.
Proof. constructor; intros; apply Cx_eq; cx; ring. Qed.
Add Ring CxRing : Cring.

Lemma Cconj_add x y : Cconj (Cadd x y) = Cadd (Cconj x) (Cconj y). Proof. apply Cx_eq; cx; ring. Qed.
Lemma Cconj_sub x y : Cconj (Csub x y) = Csub (Cconj x) (Cconj y). Proof. apply Cx_eq; cx; ring. Qed.
Lemma Cconj_mul x y : Cconj (Cmul x y) = Cmul (Cconj x) (Cconj y). Proof. apply Cx_eq; cx; ring. Qed.
Lemma Cconj_opp x : Cconj (Copp x) = Copp (Cconj x). Proof. apply Cx_eq; cx; ring. Qed.
Lemma Cconj_invol x : Cconj (Cconj x) = x. Proof. apply Cx_eq; cx; ring. Qed.
Lemma Cconj_0 : Cconj Czero = Czero. Proof. apply Cx_eq; cx; ring. Qed.
Lemma Cconj_1 : Cconj Cone = Cone. Proof. apply Cx_eq; cx; ring. Qed.

Notation Cpow := (rpow Cx Cone Cmul).
Notation Csum := (rsum Cx Czero Cadd).
Notation Ceval := (reval Cx Czero Cone Cadd Cmul).

Lemma cis_add a b : Cmul (cis a) (cis b) = cis (a + b).
Proof. apply Cx_eq; unfold cis; cx; [rewrite cos_plus|rewrite sin_plus]; ring. Qed.
Lemma cis_0 : cis 0 = Cone. Proof. unfold cis, Cone. rewrite cos_0, sin_0. reflexivity. Qed.
Lemma cis_PI : cis PI = Copp Cone. Proof. unfold cis, Copp, Cone. cbn [fst snd]. rewrite cos_PI, sin_PI. f_equal. ring. Qed.
Lemma cis_pow t n : Cpow (cis t) n = cis (INR n * t).
Proof.
  induction n as [|n IH]; [simpl; rewrite Rmult_0_l, cis_0; reflexivity|].
  cbn [rpow]. rewrite IH, cis_add. f_equal. rewrite S_INR. ring.
Qed.
Lemma cis_conj t : Cmul (cis t) (Cconj (cis t)) = Cone.
Proof. apply Cx_eq; unfold cis; cx; [|ring]. pose proof (sin2_cos2 t). unfold Rsqr in *. lra. Qed.
Lemma cis_conj_pow t n : Cmul (Cpow (cis t) n) (Cconj (Cpow (cis t) n)) = Cone.
Proof. rewrite cis_pow. apply cis_conj. Qed.

Lemma INR_pow2 n : INR (2 ^ n) = 2 ^ n.
Proof. rewrite pow_INR. reflexivity. Qed.
Lemma INR_pow2_pos n : 0 < INR (2 ^ n).
Proof. rewrite INR_pow2. apply pow_lt. lra. Qed.

Definition pt := fft_point.

Lemma pt_0 : pt 0 0 = Copp Cone.
Proof. unfold pt, fft_point. rewrite <- cis_PI. f_equal. simpl. field. Qed.
Lemma pt_odd lg i : pt (S lg) (2 * i + 1) = Copp (pt (S lg) (2 * i)).
Proof.
  unfold pt, fft_point. match goal with |- _ = Copp ?x => transitivity (Cmul x (cis PI)); [|rewrite cis_PI; ring] end. rewrite cis_add. f_equal.
  rewrite brv_odd, brv_even. rewrite !plus_INR, !mult_INR, !plus_INR. rewrite !INR_pow2. simpl. field. apply pow_nonzero. lra.
Qed.
Lemma pt_sq lg i : Cmul (pt (S lg) (2 * i)) (pt (S lg) (2 * i)) = pt lg i.
Proof.
  unfold pt, fft_point. rewrite cis_add. f_equal. rewrite brv_even. rewrite !INR_pow2. simpl. field. apply pow_nonzero. lra.
Qed.
Lemma pt_root lg i : Cpow (pt lg i) (2 ^ lg) = Copp Cone.
Proof.
  unfold pt, fft_point. rewrite cis_pow. rewrite <- cis_PI.
  replace (INR (2 ^ lg) * (PI * INR (2 * brv lg i + 1) / INR (2 ^ lg))) with (PI + 2 * INR (brv lg i) * PI).
  - unfold cis. rewrite cos_period, sin_period. reflexivity.
  - rewrite plus_INR, mult_INR. simpl. field. pose proof (INR_pow2_pos lg). lra.
Qed.
Lemma pt_conj lg i : Cmul (pt lg i) (Cconj (pt lg i)) = Cone.
Proof. apply cis_conj. Qed.

Definition zeta : Cx := cis (PI / 1024).
Lemma zeta_pow n : Cpow zeta n = cis (PI * INR n / 1024).
Proof. unfold zeta. rewrite cis_pow. f_equal. field. Qed.
Lemma zeta_root : Cpow zeta (2 ^ 10) = Copp Cone.
Proof. rewrite zeta_pow, INR_pow2. rewrite <- cis_PI. f_equal. simpl. field. Qed.
Lemma table_length : length exact_table = 1024%nat.
Proof. unfold exact_table. rewrite map_length. apply seq_length. Qed.
Lemma table_nth k : (k < 1024)%nat -> nth k exact_table Czero = Cpow zeta (brv 10 k).
Proof.
  intros Hk. unfold exact_table. rewrite zeta_pow. set (f := fun k : nat => _).
  rewrite (nth_indep _ Czero (f 0%nat)) by (rewrite map_length, seq_length; exact Hk). rewrite map_nth, seq_nth by exact Hk. reflexivity.
Qed.
Lemma rho_pt lg p : (1 <= lg <= 10)%nat -> (p < 2 ^ lg)%nat -> rhoh Cx Cone Cmul Copp zeta 10 (2 ^ lg + p) = pt lg p.
Proof.
  intros Hl Hp. rewrite (rho_final _ _ _ _ _ _ _ Cring) by (exact zeta_root || assumption).
  rewrite zeta_pow. unfold pt, fft_point. f_equal. rewrite mult_INR.
  assert (E : 1024 = INR (2 ^ lg) * INR (2 ^ (10 - lg))).
  { rewrite <- mult_INR, <- Nat.pow_add_r. replace (lg + (10 - lg))%nat with 10%nat by lia. rewrite INR_pow2. simpl. ring. }
  rewrite E. pose proof (INR_pow2_pos lg). pose proof (INR_pow2_pos (10 - lg)). field. lra.
Qed.
(** the table entry used by split_fft / merge_fft *)
Lemma table_pt lg i : (S lg <= 10)%nat -> (i < 2 ^ lg)%nat -> nth (2 ^ lg + i) exact_table Czero = pt (S lg) (2 * i).
Proof.
  intros Hl Hi.
  assert (H1 : (2 ^ S lg <= 2 ^ 10)%nat) by (apply Nat.pow_le_mono_r; lia).
  rewrite table_nth by (change 1024%nat with (2 ^ 10)%nat; simpl in H1 |- *; lia).
  rewrite <- rho_pt by (simpl; lia). replace (2 ^ S lg + 2 * i)%nat with (2 * (2 ^ lg + i))%nat by (simpl; lia).
  assert (P : (0 < 2 ^ lg)%nat) by (apply Nat.neq_0_lt_0, Nat.pow_nonzero; lia).
  rewrite rhoh_even by lia. reflexivity.
Qed.
