(** P_theta.v -- sums of Gaussian weights over the integers hardly depend on the centre. *)
From Verif Require Import Base Spec SpecR SpecG P_prob P_dist P_gsum P_tot.
From Verif Require P_exp P_exact M_exact.
From Coq Require Import Reals Lra.
Open Scope R_scope.

Definition th (k c G : R) : Prop := tot (fun z : Z => exp (- (k * (IZR z - c) ^ 2))) G.
Lemma th_ext k c k' c' G : k = k' -> c = c' -> th k c G -> th k' c' G.
Proof. intros -> ->. exact (fun H => H). Qed.
Lemma th_gauss s c G : 0 < s -> gauss_sum s c G <-> th (/ (2 * s ^ 2)) c G.
Proof.
  intros Hs. unfold gauss_sum, th, rho. assert (E : forall z : Z, exp (- ((IZR z - c) ^ 2 / (2 * s ^ 2))) = exp (- (/ (2 * s ^ 2) * (IZR z - c) ^ 2))) by (intros z; f_equal; f_equal; unfold Rdiv; ring).
  split; [apply tot_ext; exact E|apply tot_ext; intros z; symmetry; apply E].
Qed.
Lemma th_pos k c G : th k c G -> 0 < G.
Proof.
  intros H. eapply Rlt_le_trans; [apply (exp_pos (- (k * (IZR 0 - c) ^ 2)))|]. assert (K := tot_le _ _ [0%Z] H). cbn [lsum fold_right] in K. unfold lsum in K. cbn [fold_right] in K. rewrite Rplus_0_r in K. apply K. repeat constructor. intros [].
Qed.
(** shifts and reflection *)
Lemma th_shift k c n G : th k c G -> th k (c + IZR n) G.
Proof.
  intros H. unfold th. apply (tot_bij (fun z => z - n)%Z (fun z => z + n)%Z) in H; [|intros; lia|intros; lia]. revert H. apply tot_ext. intros z. rewrite minus_IZR. f_equal. ring.
Qed.
Lemma th_opp k c G : th k c G -> th k (- c) G.
Proof.
  intros H. unfold th. apply (tot_bij Z.opp Z.opp) in H; [|intros; lia|intros; lia]. revert H. apply tot_ext. intros z. rewrite opp_IZR. f_equal. ring.
Qed.
(** even and odd integers *)
Lemma th_split k a X Y : th (4 * k) a X -> th (4 * k) (a - 1 / 2) Y -> th k (2 * a) (X + Y).
Proof.
  intros HX HY. assert (S := tot_sum _ _ _ _ HX HY). unfold th.
  apply (tot_bij (fun z => if Z.even z then inl (z / 2) else inr (z / 2))%Z (fun s => match s with inl z => 2 * z | inr z => 2 * z + 1 end)%Z) in S.
  - revert S. apply tot_ext. intros z. assert (E := Zeven_div2 z). assert (O := Zodd_div2 z). destruct (Z.even z) eqn:Ev; cbn [sumf].
    + apply Z.even_spec in Ev. destruct Ev as [m ->]. rewrite (Z.mul_comm 2 m), Z.div_mul by lia. rewrite mult_IZR. f_equal. ring.
    + assert (Od : Z.odd z = true) by (rewrite <- Z.negb_even, Ev; reflexivity). apply Z.odd_spec in Od. destruct Od as [m ->]. replace ((2 * m + 1) / 2)%Z with m by (rewrite Z.add_comm, Z.mul_comm, Z.div_add by lia; reflexivity). rewrite plus_IZR, mult_IZR. f_equal. field.
  - intros z. destruct (Z.even z) eqn:Ev.
    + apply Z.even_spec in Ev. destruct Ev as [m ->]. rewrite (Z.mul_comm 2 m), Z.div_mul by lia. ring.
    + assert (Od : Z.odd z = true) by (rewrite <- Z.negb_even, Ev; reflexivity). apply Z.odd_spec in Od. destruct Od as [m ->]. replace ((2 * m + 1) / 2)%Z with m by (rewrite Z.add_comm, Z.mul_comm, Z.div_add by lia; reflexivity). reflexivity.
  - intros [z|z].
    + rewrite Z.even_mul. cbn [Z.even orb]. rewrite (Z.mul_comm 2 z), Z.div_mul by lia. reflexivity.
    + rewrite Z.even_add, Z.even_mul. cbn [Z.even orb Bool.eqb]. replace ((2 * z + 1) / 2)%Z with z by (rewrite Z.add_comm, Z.mul_comm, Z.div_add by lia; reflexivity). reflexivity.
Qed.
(** two sums, rotated by half a right angle *)
Lemma th_prod k a b A B P Q P' Q' : th k a A -> th k b B -> th (2 * k) ((a + b) / 2) P -> th (2 * k) ((a - b) / 2) Q -> th (2 * k) ((a + b - 1) / 2) P' -> th (2 * k) ((a - b - 1) / 2) Q' ->
  A * B = P * Q + P' * Q'.
Proof.
  intros HA HB HP HQ HP' HQ'. assert (EP : forall k c (z : Z), 0 <= exp (- (k * (IZR z - c) ^ 2))) by (intros; left; apply exp_pos).
  assert (AB := tot_prod _ _ _ _ Z.eq_dec Z.eq_dec (EP k a) (EP k b) HA HB).
  assert (PQ := tot_prod _ _ _ _ Z.eq_dec Z.eq_dec (EP _ _) (EP _ _) HP HQ). assert (PQ' := tot_prod _ _ _ _ Z.eq_dec Z.eq_dec (EP _ _) (EP _ _) HP' HQ').
  assert (S := tot_sum _ _ _ _ PQ PQ'). clear - AB S.
  set (phi := fun p : Z * Z => let m := fst p in let n := snd p in if Z.even (m + n) then inl ((m + n) / 2, (m - n) / 2)%Z else inr ((m + n - 1) / 2, (m - n - 1) / 2)%Z).
  set (psi := fun s : (Z * Z) + (Z * Z) => match s with inl p => (fst p + snd p, fst p - snd p) | inr p => (fst p + snd p + 1, fst p - snd p) end%Z).
  assert (H2 : forall z, (2 * z / 2 = z)%Z) by (intros z; rewrite Z.mul_comm; apply Z.div_mul; lia).
  assert (psiphi : forall p, psi (phi p) = p).
  { intros [m n]. unfold phi, psi. cbn [fst snd]. destruct (Z.even (m + n)) eqn:Ev.
    - apply Z.even_spec in Ev. destruct Ev as [i Ei]. assert (m = 2 * i - n)%Z by lia. subst m. replace (2 * i - n + n)%Z with (2 * i)%Z by ring. replace (2 * i - n - n)%Z with (2 * (i - n))%Z by ring. rewrite !H2. cbn [fst snd]. f_equal; ring.
    - assert (Od : Z.odd (m + n) = true) by (rewrite <- Z.negb_even, Ev; reflexivity). apply Z.odd_spec in Od. destruct Od as [i Ei]. assert (m = 2 * i + 1 - n)%Z by lia. subst m. replace (2 * i + 1 - n + n - 1)%Z with (2 * i)%Z by ring. replace (2 * i + 1 - n - n - 1)%Z with (2 * (i - n))%Z by ring. rewrite !H2. cbn [fst snd]. f_equal; ring. }
  assert (phipsi : forall s, phi (psi s) = s).
  { intros [[i j]|[i j]]; unfold phi, psi; cbn [fst snd].
    - replace (i + j + (i - j))%Z with (2 * i)%Z by ring. replace (i + j - (i - j))%Z with (2 * j)%Z by ring. rewrite Z.even_mul. cbn [Z.even orb]. rewrite !H2. reflexivity.
    - replace (i + j + 1 + (i - j))%Z with (2 * i + 1)%Z by ring. replace (i + j + 1 - (i - j) - 1)%Z with (2 * j)%Z by ring. rewrite Z.even_add, Z.even_mul. cbn [Z.even orb Bool.eqb]. replace (2 * i + 1 - 1)%Z with (2 * i)%Z by ring. rewrite !H2. reflexivity. }
  apply (tot_bij psi phi _ _ phipsi psiphi) in AB. refine (tot_unique _ _ _ _ S). revert AB. apply tot_ext. intros [[i j]|[i j]]; unfold psi, sumf; cbn [fst snd]; rewrite <- !exp_plus; f_equal; rewrite ?plus_IZR, ?minus_IZR; field.
Qed.

(** ** existence *)
Lemma th_ex0 k c : / (2 * (18205 / 10000) ^ 2) <= k -> exists G, th k c G.
Proof.
  intros Hk. assert (G0 : th (/ (2 * (18205 / 10000) ^ 2)) c (gsum (18205 / 10000) c)) by (apply th_gauss; [lra|]; apply gsum_ok; lra).
  apply (tot_dom _ _ _) with (2 := G0). intros z. apply exp_le. apply Ropp_le_contravar, Rmult_le_compat_r; [apply pow2_ge_0|exact Hk].
Qed.
Lemma th_exn n : forall k c, / (2 * (18205 / 10000) ^ 2) <= 4 ^ n * k -> exists G, th k c G.
Proof.
  induction n as [|n IH]; intros k c H; [apply th_ex0; simpl in H; lra|]. assert (H' : / (2 * (18205 / 10000) ^ 2) <= 4 ^ n * (4 * k)) by (simpl in H; lra).
  destruct (IH (4 * k) (c / 2) H') as [X HX]. destruct (IH (4 * k) (c / 2 - 1 / 2) H') as [Y HY]. exists (X + Y). apply (th_ext k (2 * (c / 2))); [reflexivity|field|]. apply th_split; assumption.
Qed.

(** ** G (1 - r) <= G' (1 + r) for all centres *)
Definition W (k r : R) : Prop := forall c c' G G', th k c G -> th k c' G' -> G * (1 - r) <= G' * (1 + r).
Lemma W_mono k r r' : r <= r' -> W k r -> W k r'.
Proof. intros Hr H c c' G G' A B. assert (K := H _ _ _ _ A B). assert (P := th_pos _ _ _ A). assert (P' := th_pos _ _ _ B). nra. Qed.
Definition hasth (k : R) : Prop := forall c, exists G, th k c G.
Lemma W_quad k r : hasth (4 * k) -> W (4 * k) r -> W k r.
Proof.
  intros E H c c' G G' A B. destruct (E (c / 2)) as [X HX]. destruct (E (c / 2 - 1 / 2)) as [Y HY]. destruct (E (c' / 2)) as [X' HX']. destruct (E (c' / 2 - 1 / 2)) as [Y' HY'].
  assert (EG : G = X + Y). { refine (tot_unique _ _ _ A _). apply (th_ext k (2 * (c / 2))); [reflexivity|field|]. apply th_split; assumption. }
  assert (EG' : G' = X' + Y'). { refine (tot_unique _ _ _ B _). apply (th_ext k (2 * (c' / 2))); [reflexivity|field|]. apply th_split; assumption. }
  assert (U := H _ _ _ _ HX HX'). assert (V := H _ _ _ _ HY HY'). subst. lra.
Qed.
Lemma cross x y M m p : 0 < x -> 0 < y -> 0 < M -> 0 < m -> 0 <= p ->
  x * (1 - p) <= y * (1 + p) -> y * (1 - p) <= x * (1 + p) -> M * (1 - p) <= m * (1 + p) -> m * (1 - p) <= M * (1 + p) ->
  (x + y) * (M + m) / 2 * (1 - p * p) <= x * M + y * m <= (x + y) * (M + m) / 2 * (1 + p * p).
Proof.
  intros Px Py PM Pm Pp H1 H2 H3 H4. assert (E : x * M + y * m = ((x + y) * (M + m) + (x - y) * (M - m)) / 2) by field. rewrite E.
  assert (A : Rabs (x - y) <= p * (x + y)) by (apply Rabs_le; lra). assert (B : Rabs (M - m) <= p * (M + m)) by (apply Rabs_le; lra).
  assert (C : Rabs ((x - y) * (M - m)) <= (p * (x + y)) * (p * (M + m))) by (rewrite Rabs_mult; apply Rmult_le_compat; try apply Rabs_pos; assumption).
  assert (D := Rle_abs ((x - y) * (M - m))). assert (D' := Rle_abs (- ((x - y) * (M - m)))). rewrite Rabs_Ropp in D'. lra.
Qed.
Lemma W_step k p r h : hasth k -> hasth (2 * k) -> hasth (k / 2) -> W (2 * k) p -> W (k / 2) r -> 0 <= p < 1 -> 0 <= r < 1 -> (p * p + r) / 2 <= h <= 9 / 20 -> W k (h + 2 * h ^ 3).
Proof.
  intros _ E E2 Wp Wr Hp Hr Hh c c' A B HA HB.
  assert (PA := th_pos _ _ _ HA). assert (PB := th_pos _ _ _ HB).
  destruct (E 0) as [M HM]. destruct (E (- (1 / 2))) as [m Hm]. assert (PM := th_pos _ _ _ HM). assert (Pm := th_pos _ _ _ Hm).
  assert (Wmm := Wp _ _ _ _ HM Hm). assert (Wmm' := Wp _ _ _ _ Hm HM).
  assert (S : forall d D, th k d D -> exists U, th (k / 2) (2 * d) U /\ U * ((M + m) / 2) * (1 - p * p) <= D * D <= U * ((M + m) / 2) * (1 + p * p)).
  { intros d D HD. destruct (E d) as [x Hx]. destruct (E (d - 1 / 2)) as [y Hy]. exists (x + y). split.
    - apply th_split; [apply (th_ext (2 * k) d); [field|reflexivity|exact Hx]|apply (th_ext (2 * k) (d - 1 / 2)); [field|reflexivity|exact Hy]].
    - assert (ED : D * D = x * M + y * m).
      { apply (th_prod k d d D D x M y m HD HD); [revert Hx|revert HM|revert Hy|revert Hm]; apply th_ext; try reflexivity; field. }
      rewrite ED. assert (K := cross x y M m p (th_pos _ _ _ Hx) (th_pos _ _ _ Hy) PM Pm (proj1 Hp) (Wp _ _ _ _ Hx Hy) (Wp _ _ _ _ Hy Hx) Wmm Wmm'). unfold Rdiv in *. lra. }
  destruct (S c A HA) as (U & HU & _ & UA). destruct (S c' B HB) as (U' & HU' & LB & _). clear S.
  assert (WU := Wr _ _ _ _ HU HU'). assert (PU := th_pos _ _ _ HU). assert (PU' := th_pos _ _ _ HU').
  set (K := (M + m) / 2) in *. assert (PK : 0 < K) by (unfold K; lra). set (a := p * p) in *. assert (Ha : 0 <= a < 1) by (unfold a; nra).
  (* A^2 (1-a)(1-r) <= B^2 (1+a)(1+r) *)
  assert (Q : A * A * ((1 - a) * (1 - r)) <= B * B * ((1 + a) * (1 + r))).
  { assert (Q1 : A * A * ((1 - a) * (1 - r)) <= U * K * (1 + a) * ((1 - a) * (1 - r))) by (apply Rmult_le_compat_r; [apply Rmult_le_pos; lra|exact UA]).
    assert (Q2 : U' * K * (1 - a) * ((1 + a) * (1 + r)) <= B * B * ((1 + a) * (1 + r))) by (apply Rmult_le_compat_r; [apply Rmult_le_pos; lra|exact LB]).
    assert (Q3 : U * (1 - r) * (K * (1 + a) * (1 - a)) <= U' * (1 + r) * (K * (1 + a) * (1 - a))) by (apply Rmult_le_compat_r; [repeat apply Rmult_le_pos; lra|exact WU]).
    replace (U * K * (1 + a) * ((1 - a) * (1 - r))) with (U * (1 - r) * (K * (1 + a) * (1 - a))) in Q1 by ring. replace (U' * K * (1 - a) * ((1 + a) * (1 + r))) with (U' * (1 + r) * (K * (1 + a) * (1 - a))) in Q2 by ring. lra. }
  clear - Q PA PB Ha Hr Hh. set (x := h + 2 * h ^ 3).
  assert (Hx : x <= 1 /\ h * (1 + x * x) <= x).
  { assert (H0 : 0 <= h) by lra. assert (h2 : 0 <= h ^ 2 <= 81 / 400) by (split; [apply pow2_ge_0|simpl; nra]). unfold x. replace (h + 2 * h ^ 3) with (h * (1 + 2 * h ^ 2)) by ring. set (y := h ^ 2) in *. split; [nra|].
    apply Rmult_le_compat_l; [exact H0|]. replace (h * (1 + 2 * y) * (h * (1 + 2 * y))) with (y * ((1 + 2 * y) * (1 + 2 * y))) by (unfold y; ring). nra. }
  destruct Hx as [x1 Hx]. assert (x0 : 0 <= x) by (unfold x; assert (0 <= h) by lra; assert (0 <= h ^ 3) by (apply pow_le; lra); lra).
  assert (Hx' : (a + r) * (1 + x * x) <= 2 * x * (1 + a * r)) by (assert (0 <= a * r) by (apply Rmult_le_pos; lra); assert (T1 : (a + r) / 2 * (1 + x * x) <= h * (1 + x * x)) by (apply Rmult_le_compat_r; [assert (0 <= x * x) by (apply Rmult_le_pos; lra); lra|lra]); assert (0 <= x * (a * r)) by (apply Rmult_le_pos; lra); lra).
  (* (1+a)(1+r)(1-x)^2 <= (1-a)(1-r)(1+x)^2 *)
  assert (Q4 : (1 + a) * (1 + r) * ((1 - x) * (1 - x)) <= (1 - a) * (1 - r) * ((1 + x) * (1 + x))) by lra.
  apply Rsqr_incr_0; [|apply Rmult_le_pos; lra|apply Rmult_le_pos; lra]. unfold Rsqr. assert (Pd : 0 < (1 - a) * (1 - r)) by (apply Rmult_lt_0_compat; lra).
  apply Rmult_le_reg_r with (1 := Pd).
  assert (Q5 : A * A * ((1 - a) * (1 - r)) * ((1 - x) * (1 - x)) <= B * B * ((1 + a) * (1 + r)) * ((1 - x) * (1 - x))) by (apply Rmult_le_compat_r; [apply Rmult_le_pos; lra|exact Q]).
  assert (Q6 : B * B * ((1 + a) * (1 + r) * ((1 - x) * (1 - x))) <= B * B * ((1 - a) * (1 - r) * ((1 + x) * (1 + x)))) by (apply Rmult_le_compat_l; [apply Rmult_le_pos; lra|exact Q4]).
  lra.
Qed.

(** ** numbers *)
Lemma exp_16 y : exp (- y) = exp (- (y / 16)) ^ 16.
Proof. assert (E : forall n x, exp x ^ n = exp (INR n * x)) by (induction n as [|n IH]; intros x; [simpl; rewrite Rmult_0_l, exp_0; reflexivity|]; cbn [pow]; rewrite IH, <- exp_plus, S_INR; f_equal; ring). rewrite E. f_equal. simpl. field. Qed.
Lemma exp_lb y p t : 0 <= y <= 16 /\ 0 <= p /\ p <= 1 - y / 16 + (y / 16) ^ 2 / 2 - (y / 16) ^ 3 / 6 /\ t <= p ^ 16 -> t <= exp (- y).
Proof.
  intros (Hy & P0 & Hp & Ht). rewrite exp_16. eapply Rle_trans; [exact Ht|]. apply pow_incr. split; [exact P0|]. eapply Rle_trans; [exact Hp|].
  destruct (P_exp.exp_alt 1 (y / 16) ltac:(lra)) as [L _]. eapply Rle_trans; [|exact L]. right. cbn [sum_f_R0 Nat.mul Nat.add]. unfold tg_alt, P_exp.eterm. simpl. field.
Qed.
Lemma exp_ub y p t : 0 <= y <= 16 /\ 0 <= p /\ 1 - y / 16 + (y / 16) ^ 2 / 2 - (y / 16) ^ 3 / 6 + (y / 16) ^ 4 / 24 <= p /\ p ^ 16 <= t -> exp (- y) <= t.
Proof.
  intros (Hy & P0 & Hp & Ht). rewrite exp_16. eapply Rle_trans; [|exact Ht]. apply pow_incr. split; [left; apply exp_pos|]. eapply Rle_trans; [|exact Hp].
  destruct (P_exp.exp_alt 2 (y / 16) ltac:(lra)) as [_ U]. eapply Rle_trans; [exact U|]. right. cbn [sum_f_R0 Nat.mul Nat.add]. unfold tg_alt, P_exp.eterm. simpl. field.
Qed.
Lemma sq_mono k k' x y : 0 <= k <= k' -> 0 <= x <= y -> exp (- (k' * y ^ 2)) <= exp (- (k * x ^ 2)).
Proof. intros Hk Hx. apply exp_le, Ropp_le_contravar. apply Rmult_le_compat; [lra|apply pow2_ge_0|lra|]. simpl. nra. Qed.
Lemma pair_cell k k1 k2 c a b : k1 <= k <= k2 -> a <= c <= b -> 0 <= k1 -> 0 <= a -> b <= 1 ->
  exp (- (k2 * b ^ 2)) + exp (- (k2 * (1 - a) ^ 2)) <= exp (- (k * c ^ 2)) + exp (- (k * (1 - c) ^ 2)) <= exp (- (k1 * a ^ 2)) + exp (- (k1 * (1 - b) ^ 2)).
Proof. intros Hk Hc H1 Ha Hb. split; apply Rplus_le_compat; apply sq_mono; lra. Qed.
Lemma pair_a k c : 241 / 100 <= k <= 7 / 2 -> 0 <= c <= 1 / 2 -> 74000 / 100000 <= exp (- (k * c ^ 2)) + exp (- (k * (1 - c) ^ 2)) <= 127000 / 100000.
Proof.
  intros Hk Hc.
  destruct (Rle_lt_dec c (2 / 16)) as [?|?].
  { assert (Ha : (0 / 16) <= c <= (2 / 16)) by lra. assert (L1 : 94674 / 100000 <= exp (- (7 / 2 * (2 / 16) ^ 2))) by (apply (exp_lb _ (996586 / 1000000)); lra). assert (L2 : 3013 / 100000 <= exp (- (7 / 2 * (1 - (0 / 16)) ^ 2))) by (apply (exp_lb _ (803430 / 1000000)); lra). assert (U1 : exp (- (241 / 100 * (0 / 16) ^ 2)) <= 100003 / 100000) by (apply (exp_ub _ (1000001 / 1000000)); lra). assert (U2 : exp (- (241 / 100 * (1 - (2 / 16)) ^ 2)) <= 15802 / 100000) by (apply (exp_ub _ (891081 / 1000000)); lra). assert (C := pair_cell k (241 / 100) (7 / 2) c (0 / 16) (2 / 16) Hk Ha ltac:(lra) ltac:(lra) ltac:(lra)). lra. }
  destruct (Rle_lt_dec c (4 / 16)) as [?|?].
  { assert (Ha : (2 / 16) <= c <= (4 / 16)) by lra. assert (L1 : 80349 / 100000 <= exp (- (7 / 2 * (4 / 16) ^ 2))) by (apply (exp_lb _ (986420 / 1000000)); lra). assert (L2 : 6853 / 100000 <= exp (- (7 / 2 * (1 - (2 / 16)) ^ 2))) by (apply (exp_lb _ (845760 / 1000000)); lra). assert (U1 : exp (- (241 / 100 * (2 / 16) ^ 2)) <= 96309 / 100000) by (apply (exp_ub _ (997651 / 1000000)); lra). assert (U2 : exp (- (241 / 100 * (1 - (4 / 16)) ^ 2)) <= 25781 / 100000) by (apply (exp_ub _ (918765 / 1000000)); lra). assert (C := pair_cell k (241 / 100) (7 / 2) c (2 / 16) (4 / 16) Hk Ha ltac:(lra) ltac:(lra) ltac:(lra)). lra. }
  destruct (Rle_lt_dec c (6 / 16)) as [?|?].
  { assert (Ha : (4 / 16) <= c <= (6 / 16)) by lra. assert (L1 : 61126 / 100000 <= exp (- (7 / 2 * (6 / 16) ^ 2))) by (apply (exp_lb _ (969705 / 1000000)); lra). assert (L2 : 13959 / 100000 <= exp (- (7 / 2 * (1 - (4 / 16)) ^ 2))) by (apply (exp_lb _ (884211 / 1000000)); lra). assert (U1 : exp (- (241 / 100 * (4 / 16) ^ 2)) <= 86021 / 100000) by (apply (exp_ub _ (990632 / 1000000)); lra). assert (U2 : exp (- (241 / 100 * (1 - (6 / 16)) ^ 2)) <= 39010 / 100000) by (apply (exp_ub _ (942861 / 1000000)); lra). assert (C := pair_cell k (241 / 100) (7 / 2) c (4 / 16) (6 / 16) Hk Ha ltac:(lra) ltac:(lra) ltac:(lra)). lra. }
  destruct (Rle_lt_dec c (7 / 16)) as [?|?].
  { assert (Ha : (6 / 16) <= c <= (7 / 16)) by lra. assert (L1 : 51172 / 100000 <= exp (- (7 / 2 * (7 / 16) ^ 2))) by (apply (exp_lb _ (958993 / 1000000)); lra). assert (L2 : 25479 / 100000 <= exp (- (7 / 2 * (1 - (6 / 16)) ^ 2))) by (apply (exp_lb _ (918096 / 1000000)); lra). assert (U1 : exp (- (241 / 100 * (6 / 16) ^ 2)) <= 71259 / 100000) by (apply (exp_ub _ (979043 / 1000000)); lra). assert (U2 : exp (- (241 / 100 * (1 - (7 / 16)) ^ 2)) <= 46651 / 100000) by (apply (exp_ub _ (953461 / 1000000)); lra). assert (C := pair_cell k (241 / 100) (7 / 2) c (6 / 16) (7 / 16) Hk Ha ltac:(lra) ltac:(lra) ltac:(lra)). lra. }
  destruct (Rle_lt_dec c (8 / 16)) as [?|?].
  { assert (Ha : (7 / 16) <= c <= (8 / 16)) by lra. assert (L1 : 41683 / 100000 <= exp (- (7 / 2 * (8 / 16) ^ 2))) by (apply (exp_lb _ (946779 / 1000000)); lra). assert (L2 : 33038 / 100000 <= exp (- (7 / 2 * (1 - (7 / 16)) ^ 2))) by (apply (exp_lb _ (933125 / 1000000)); lra). assert (U1 : exp (- (241 / 100 * (7 / 16) ^ 2)) <= 63051 / 100000) by (apply (exp_ub _ (971583 / 1000000)); lra). assert (U2 : exp (- (241 / 100 * (1 - (8 / 16)) ^ 2)) <= 54747 / 100000) by (apply (exp_ub _ (963045 / 1000000)); lra). assert (C := pair_cell k (241 / 100) (7 / 2) c (7 / 16) (8 / 16) Hk Ha ltac:(lra) ltac:(lra) ltac:(lra)). lra. }
  exfalso. lra.
Qed.
Lemma pair_b k c : 7 / 2 <= k <= 49 / 10 -> 0 <= c <= 1 / 2 -> 55500 / 100000 <= exp (- (k * c ^ 2)) + exp (- (k * (1 - c) ^ 2)) <= 106000 / 100000.
Proof.
  intros Hk Hc.
  destruct (Rle_lt_dec c (1 / 16)) as [?|?].
  { assert (Ha : (0 / 16) <= c <= (1 / 16)) by lra. assert (L1 : 98100 / 100000 <= exp (- (49 / 10 * (1 / 16) ^ 2))) by (apply (exp_lb _ (998803 / 1000000)); lra). assert (L2 : 738 / 100000 <= exp (- (49 / 10 * (1 - (0 / 16)) ^ 2))) by (apply (exp_lb _ (735856 / 1000000)); lra). assert (U1 : exp (- (7 / 2 * (0 / 16) ^ 2)) <= 100003 / 100000) by (apply (exp_ub _ (1000001 / 1000000)); lra). assert (U2 : exp (- (7 / 2 * (1 - (1 / 16)) ^ 2)) <= 4615 / 100000) by (apply (exp_ub _ (825095 / 1000000)); lra). assert (C := pair_cell k (7 / 2) (49 / 10) c (0 / 16) (1 / 16) Hk Ha ltac:(lra) ltac:(lra) ltac:(lra)). lra. }
  destruct (Rle_lt_dec c (2 / 16)) as [?|?].
  { assert (Ha : (1 / 16) <= c <= (2 / 16)) by lra. assert (L1 : 92626 / 100000 <= exp (- (49 / 10 * (2 / 16) ^ 2))) by (apply (exp_lb _ (995225 / 1000000)); lra). assert (L2 : 1340 / 100000 <= exp (- (49 / 10 * (1 - (1 / 16)) ^ 2))) by (apply (exp_lb _ (763808 / 1000000)); lra). assert (U1 : exp (- (7 / 2 * (1 / 16) ^ 2)) <= 98645 / 100000) by (apply (exp_ub _ (999147 / 1000000)); lra). assert (U2 : exp (- (7 / 2 * (1 - (2 / 16)) ^ 2)) <= 6860 / 100000) by (apply (exp_ub _ (845796 / 1000000)); lra). assert (C := pair_cell k (7 / 2) (49 / 10) c (1 / 16) (2 / 16) Hk Ha ltac:(lra) ltac:(lra) ltac:(lra)). lra. }
  destruct (Rle_lt_dec c (3 / 16)) as [?|?].
  { assert (Ha : (2 / 16) <= c <= (3 / 16)) by lra. assert (L1 : 84172 / 100000 <= exp (- (49 / 10 * (3 / 16) ^ 2))) by (apply (exp_lb _ (989290 / 1000000)); lra). assert (L2 : 2341 / 100000 <= exp (- (49 / 10 * (1 - (2 / 16)) ^ 2))) by (apply (exp_lb _ (790866 / 1000000)); lra). assert (U1 : exp (- (7 / 2 * (2 / 16) ^ 2)) <= 94681 / 100000) by (apply (exp_ub _ (996589 / 1000000)); lra). assert (U2 : exp (- (7 / 2 * (1 - (3 / 16)) ^ 2)) <= 9923 / 100000) by (apply (exp_ub _ (865536 / 1000000)); lra). assert (C := pair_cell k (7 / 2) (49 / 10) c (2 / 16) (3 / 16) Hk Ha ltac:(lra) ltac:(lra) ltac:(lra)). lra. }
  destruct (Rle_lt_dec c (4 / 16)) as [?|?].
  { assert (Ha : (3 / 16) <= c <= (4 / 16)) by lra. assert (L1 : 73617 / 100000 <= exp (- (49 / 10 * (4 / 16) ^ 2))) by (apply (exp_lb _ (981040 / 1000000)); lra). assert (L2 : 3930 / 100000 <= exp (- (49 / 10 * (1 - (3 / 16)) ^ 2))) by (apply (exp_lb _ (816885 / 1000000)); lra). assert (U1 : exp (- (7 / 2 * (3 / 16) ^ 2)) <= 88426 / 100000) by (apply (exp_ub _ (992341 / 1000000)); lra). assert (U2 : exp (- (7 / 2 * (1 - (4 / 16)) ^ 2)) <= 13965 / 100000) by (apply (exp_ub _ (884224 / 1000000)); lra). assert (C := pair_cell k (7 / 2) (49 / 10) c (3 / 16) (4 / 16) Hk Ha ltac:(lra) ltac:(lra) ltac:(lra)). lra. }
  destruct (Rle_lt_dec c (5 / 16)) as [?|?].
  { assert (Ha : (4 / 16) <= c <= (5 / 16)) by lra. assert (L1 : 61967 / 100000 <= exp (- (49 / 10 * (5 / 16) ^ 2))) by (apply (exp_lb _ (970534 / 1000000)); lra). assert (L2 : 6347 / 100000 <= exp (- (49 / 10 * (1 - (4 / 16)) ^ 2))) by (apply (exp_lb _ (841719 / 1000000)); lra). assert (U1 : exp (- (7 / 2 * (4 / 16) ^ 2)) <= 80356 / 100000) by (apply (exp_ub _ (986423 / 1000000)); lra). assert (U2 : exp (- (7 / 2 * (1 - (5 / 16)) ^ 2)) <= 19125 / 100000) by (apply (exp_ub _ (901774 / 1000000)); lra). assert (C := pair_cell k (7 / 2) (49 / 10) c (4 / 16) (5 / 16) Hk Ha ltac:(lra) ltac:(lra) ltac:(lra)). lra. }
  destruct (Rle_lt_dec c (11 / 32)) as [?|?].
  { assert (Ha : (5 / 16) <= c <= (11 / 32)) by lra. assert (L1 : 56043 / 100000 <= exp (- (49 / 10 * (11 / 32) ^ 2))) by (apply (exp_lb _ (964458 / 1000000)); lra). assert (L2 : 9861 / 100000 <= exp (- (49 / 10 * (1 - (5 / 16)) ^ 2))) by (apply (exp_lb _ (865218 / 1000000)); lra). assert (U1 : exp (- (7 / 2 * (5 / 16) ^ 2)) <= 71053 / 100000) by (apply (exp_ub _ (978866 / 1000000)); lra). assert (U2 : exp (- (7 / 2 * (1 - (11 / 32)) ^ 2)) <= 22152 / 100000) by (apply (exp_ub _ (910095 / 1000000)); lra). assert (C := pair_cell k (7 / 2) (49 / 10) c (5 / 16) (11 / 32) Hk Ha ltac:(lra) ltac:(lra) ltac:(lra)). lra. }
  destruct (Rle_lt_dec c (12 / 32)) as [?|?].
  { assert (Ha : (11 / 32) <= c <= (12 / 32)) by lra. assert (L1 : 50202 / 100000 <= exp (- (49 / 10 * (12 / 32) ^ 2))) by (apply (exp_lb _ (957846 / 1000000)); lra). assert (L2 : 12116 / 100000 <= exp (- (49 / 10 * (1 - (11 / 32)) ^ 2))) by (apply (exp_lb _ (876423 / 1000000)); lra). assert (U1 : exp (- (7 / 2 * (11 / 32) ^ 2)) <= 66131 / 100000) by (apply (exp_ub _ (974484 / 1000000)); lra). assert (U2 : exp (- (7 / 2 * (1 - (12 / 32)) ^ 2)) <= 25484 / 100000) by (apply (exp_ub _ (918101 / 1000000)); lra). assert (C := pair_cell k (7 / 2) (49 / 10) c (11 / 32) (12 / 32) Hk Ha ltac:(lra) ltac:(lra) ltac:(lra)). lra. }
  destruct (Rle_lt_dec c (13 / 32)) as [?|?].
  { assert (Ha : (12 / 32) <= c <= (13 / 32)) by lra. assert (L1 : 44541 / 100000 <= exp (- (49 / 10 * (13 / 32) ^ 2))) by (apply (exp_lb _ (950711 / 1000000)); lra). assert (L2 : 14744 / 100000 <= exp (- (49 / 10 * (1 - (12 / 32)) ^ 2))) by (apply (exp_lb _ (887240 / 1000000)); lra). assert (U1 : exp (- (7 / 2 * (12 / 32) ^ 2)) <= 61132 / 100000) by (apply (exp_ub _ (969708 / 1000000)); lra). assert (U2 : exp (- (7 / 2 * (1 - (13 / 32)) ^ 2)) <= 29118 / 100000) by (apply (exp_ub _ (925782 / 1000000)); lra). assert (C := pair_cell k (7 / 2) (49 / 10) c (12 / 32) (13 / 32) Hk Ha ltac:(lra) ltac:(lra) ltac:(lra)). lra. }
  destruct (Rle_lt_dec c (14 / 32)) as [?|?].
  { assert (Ha : (13 / 32) <= c <= (14 / 32)) by lra. assert (L1 : 39143 / 100000 <= exp (- (49 / 10 * (14 / 32) ^ 2))) by (apply (exp_lb _ (943065 / 1000000)); lra). assert (L2 : 17770 / 100000 <= exp (- (49 / 10 * (1 - (13 / 32)) ^ 2))) by (apply (exp_lb _ (897652 / 1000000)); lra). assert (U1 : exp (- (7 / 2 * (13 / 32) ^ 2)) <= 56125 / 100000) by (apply (exp_ub _ (964543 / 1000000)); lra). assert (U2 : exp (- (7 / 2 * (1 - (14 / 32)) ^ 2)) <= 33044 / 100000) by (apply (exp_ub _ (933129 / 1000000)); lra). assert (C := pair_cell k (7 / 2) (49 / 10) c (13 / 32) (14 / 32) Hk Ha ltac:(lra) ltac:(lra) ltac:(lra)). lra. }
  destruct (Rle_lt_dec c (29 / 64)) as [?|?].
  { assert (Ha : (14 / 32) <= c <= (29 / 64)) by lra. assert (L1 : 36562 / 100000 <= exp (- (49 / 10 * (29 / 64) ^ 2))) by (apply (exp_lb _ (939054 / 1000000)); lra). assert (L2 : 21213 / 100000 <= exp (- (49 / 10 * (1 - (14 / 32)) ^ 2))) by (apply (exp_lb _ (907642 / 1000000)); lra). assert (U1 : exp (- (7 / 2 * (14 / 32) ^ 2)) <= 51178 / 100000) by (apply (exp_ub _ (958996 / 1000000)); lra). assert (U2 : exp (- (7 / 2 * (1 - (29 / 64)) ^ 2)) <= 35110 / 100000) by (apply (exp_ub _ (936674 / 1000000)); lra). assert (C := pair_cell k (7 / 2) (49 / 10) c (14 / 32) (29 / 64) Hk Ha ltac:(lra) ltac:(lra) ltac:(lra)). lra. }
  destruct (Rle_lt_dec c (30 / 64)) as [?|?].
  { assert (Ha : (29 / 64) <= c <= (30 / 64)) by lra. assert (L1 : 34071 / 100000 <= exp (- (49 / 10 * (30 / 64) ^ 2))) by (apply (exp_lb _ (934921 / 1000000)); lra). assert (L2 : 23094 / 100000 <= exp (- (49 / 10 * (1 - (29 / 64)) ^ 2))) by (apply (exp_lb _ (912474 / 1000000)); lra). assert (U1 : exp (- (7 / 2 * (29 / 64) ^ 2)) <= 48745 / 100000) by (apply (exp_ub _ (956081 / 1000000)); lra). assert (U2 : exp (- (7 / 2 * (1 - (30 / 64)) ^ 2)) <= 37243 / 100000) by (apply (exp_ub _ (940132 / 1000000)); lra). assert (C := pair_cell k (7 / 2) (49 / 10) c (29 / 64) (30 / 64) Hk Ha ltac:(lra) ltac:(lra) ltac:(lra)). lra. }
  destruct (Rle_lt_dec c (31 / 64)) as [?|?].
  { assert (Ha : (30 / 64) <= c <= (31 / 64)) by lra. assert (L1 : 31672 / 100000 <= exp (- (49 / 10 * (31 / 64) ^ 2))) by (apply (exp_lb _ (930666 / 1000000)); lra). assert (L2 : 25081 / 100000 <= exp (- (49 / 10 * (1 - (30 / 64)) ^ 2))) by (apply (exp_lb _ (917194 / 1000000)); lra). assert (U1 : exp (- (7 / 2 * (30 / 64) ^ 2)) <= 46348 / 100000) by (apply (exp_ub _ (953073 / 1000000)); lra). assert (U2 : exp (- (7 / 2 * (1 - (31 / 64)) ^ 2)) <= 39437 / 100000) by (apply (exp_ub _ (943502 / 1000000)); lra). assert (C := pair_cell k (7 / 2) (49 / 10) c (30 / 64) (31 / 64) Hk Ha ltac:(lra) ltac:(lra) ltac:(lra)). lra. }
  destruct (Rle_lt_dec c (32 / 64)) as [?|?].
  { assert (Ha : (31 / 64) <= c <= (32 / 64)) by lra. assert (L1 : 29373 / 100000 <= exp (- (49 / 10 * (32 / 64) ^ 2))) by (apply (exp_lb _ (926292 / 1000000)); lra). assert (L2 : 27175 / 100000 <= exp (- (49 / 10 * (1 - (31 / 64)) ^ 2))) by (apply (exp_lb _ (921801 / 1000000)); lra). assert (U1 : exp (- (7 / 2 * (31 / 64) ^ 2)) <= 43994 / 100000) by (apply (exp_ub _ (949973 / 1000000)); lra). assert (U2 : exp (- (7 / 2 * (1 - (32 / 64)) ^ 2)) <= 41688 / 100000) by (apply (exp_ub _ (946782 / 1000000)); lra). assert (C := pair_cell k (7 / 2) (49 / 10) c (31 / 64) (32 / 64) Hk Ha ltac:(lra) ltac:(lra) ltac:(lra)). lra. }
  exfalso. lra.
Qed.
Lemma geo x n : 0 <= x < 1 -> rsum n (fun j => x ^ S j) <= x / (1 - x).
Proof.
  intros Hx. assert (E : rsum n (fun j => x ^ S j) * (1 - x) = x - x ^ S n) by (induction n as [|n IH]; [simpl; ring|]; cbn [rsum]; rewrite Rmult_plus_distr_r, IH; simpl; ring).
  apply Rmult_le_reg_r with (1 - x); [lra|]. rewrite E. replace (x / (1 - x) * (1 - x)) with x by (field; lra). assert (0 <= x ^ S n) by (apply pow_le; lra). lra.
Qed.
Lemma rsum_S_l n f : rsum (S n) f = f 0%nat + rsum n (fun j => f (S j)).
Proof. induction n as [|n IH]; [simpl; ring|]. cbn [rsum] in *. rewrite IH. ring. Qed.
Lemma exp_pow k n : exp (- k) ^ n = exp (- (k * INR n)).
Proof. induction n as [|n IH]; [simpl; rewrite Rmult_0_r, Ropp_0, exp_0; reflexivity|]. cbn [pow]. rewrite IH, <- exp_plus, S_INR. f_equal. ring. Qed.
Lemma th_upper k c G : 0 < k -> 0 <= c <= 1 / 2 -> th k c G -> let q := exp (- k) in G <= exp (- (k * c ^ 2)) + exp (- (k * (1 - c) ^ 2)) + q / (1 - q) + q ^ 2 / (1 - q ^ 2).
Proof.
  intros Hk Hc H q. assert (Hq : 0 < q < 1) by (split; [apply exp_pos|]; unfold q; rewrite <- exp_0; apply exp_increasing; lra).
  apply (tot_ub _ _ _ H). intros l N. destruct (vals_cover l 0) as [M HM].
  eapply Rle_trans; [apply (lsum_incl _ Z.eq_dec); [intros z; left; apply exp_pos|exact N|intros z Hz; left; apply HM, Hz]|]. rewrite lsum_vals, !rsum_S_l.
  assert (A : rsum M (fun j => exp (- (k * (IZR (0 - Z.of_nat (S j)) - c) ^ 2))) <= q / (1 - q)).
  { eapply Rle_trans; [|apply (geo q M); lra]. clear -Hk Hc. induction M as [|M IH]; cbn [rsum]; [lra|]. apply Rplus_le_compat; [exact IH|]. unfold q. rewrite exp_pow. apply exp_le, Ropp_le_contravar, Rmult_le_compat_l; [lra|].
    rewrite minus_IZR, <- INR_IZR_INZ. assert (1 <= INR (S M)) by (apply (le_INR 1); lia). nra. }
  assert (B : rsum M (fun j => exp (- (k * (IZR (0 + 1 + Z.of_nat (S j)) - c) ^ 2))) <= q ^ 2 / (1 - q ^ 2)).
  { eapply Rle_trans; [|apply (geo (q ^ 2) M); simpl; nra]. clear -Hk Hc. induction M as [|M IH]; cbn [rsum]; [lra|]. apply Rplus_le_compat; [exact IH|]. unfold q. rewrite <- pow_mult, exp_pow. apply exp_le, Ropp_le_contravar, Rmult_le_compat_l; [lra|].
    rewrite !plus_IZR, <- INR_IZR_INZ, mult_INR. change (INR 2) with 2. assert (1 <= INR (S M)) by (apply (le_INR 1); lia). nra. }
  change (0 - Z.of_nat 0)%Z with 0%Z. change (0 + 1 + Z.of_nat 0)%Z with 1%Z. replace ((0 - c) ^ 2) with (c ^ 2) by ring. lra.
Qed.
Lemma th_lower k c G : th k c G -> exp (- (k * c ^ 2)) + exp (- (k * (1 - c) ^ 2)) <= G.
Proof.
  intros H. assert (K := tot_le _ _ [0; 1]%Z H). unfold lsum in K. cbn [fold_right] in K. replace ((0 - c) ^ 2) with (c ^ 2) in K by ring. rewrite Rplus_0_r in K. apply K. repeat constructor; cbn; lia.
Qed.
Lemma th_reduce k c G : th k c G -> exists d, 0 <= d <= 1 / 2 /\ th k d G.
Proof.
  intros H. assert (F := P_exact.Rfloor_spec c). set (n := M_exact.Rfloor c) in *. destruct (Rle_lt_dec (c - IZR n) (1 / 2)) as [L|L].
  - exists (c + IZR (- n)). split; [rewrite opp_IZR; lra|apply th_shift; exact H].
  - exists (- c + IZR (n + 1)). split; [rewrite plus_IZR; lra|apply th_shift, th_opp; exact H].
Qed.
Lemma base k : 241 / 100 <= k <= 49 / 10 -> W k (1 / 3).
Proof.
  intros Hk c c' G G' HG HG'. destruct (th_reduce _ _ _ HG) as (d & Hd & Hd1). destruct (th_reduce _ _ _ HG') as (d' & Hd' & Hd1'). clear HG HG'.
  assert (U := th_upper k d G ltac:(lra) Hd Hd1). cbv zeta in U. assert (L := th_lower k d' G' Hd1'). 
  assert (T : forall q b, 0 < q <= b -> b < 1 -> q / (1 - q) + q ^ 2 / (1 - q ^ 2) <= b / (1 - b) + b ^ 2 / (1 - b ^ 2)).
  { assert (T1 : forall q b, 0 <= q <= b -> b < 1 -> q / (1 - q) <= b / (1 - b)).
    { intros q b Hq Hb. apply Rmult_le_compat; [lra|left; apply Rinv_0_lt_compat; lra|lra|apply Rinv_le_contravar; lra]. }
    intros q b Hq Hb. apply Rplus_le_compat; apply T1; try lra; simpl; nra. }
  assert (Q0 := exp_pos (- k)).
  destruct (Rle_lt_dec k (7 / 2)) as [Hs|Hs].
  - assert (P := pair_a k d ltac:(lra) Hd). assert (P' := pair_a k d' ltac:(lra) Hd').
    assert (Q : exp (- k) <= 91 / 1000). { apply Rle_trans with (exp (- (241 / 100))); [apply exp_le; lra|]. apply (exp_ub _ (86018 / 100000)); lra. }
    assert (K := T _ _ (conj Q0 Q) ltac:(lra)). assert (91 / 1000 / (1 - 91 / 1000) + (91 / 1000) ^ 2 / (1 - (91 / 1000) ^ 2) <= 11 / 100) by lra. lra.
  - assert (P := pair_b k d ltac:(lra) Hd). assert (P' := pair_b k d' ltac:(lra) Hd').
    assert (Q : exp (- k) <= 31 / 1000). { apply Rle_trans with (exp (- (7 / 2))); [apply exp_le; lra|]. apply (exp_ub _ (80354 / 100000)); lra. }
    assert (K := T _ _ (conj Q0 Q) ltac:(lra)). assert (31 / 1000 / (1 - 31 / 1000) + (31 / 1000) ^ 2 / (1 - (31 / 1000) ^ 2) <= 34 / 1000) by lra. lra.
Qed.

(** ** iteration *)
Section Iter.
Variable k0 : R.
Hypothesis Hk0 : 241 / 100 <= k0 <= 49 / 10.
Notation kap j := (k0 / 2 ^ j).
Lemma kap_has j : hasth (kap j).
Proof.
  intros c. apply (th_exn j). assert (P : 0 < 2 ^ j) by (apply pow_lt; lra). replace (4 ^ j * (k0 / 2 ^ j)) with (2 ^ j * k0) by (replace 4 with (2 * 2) by ring; rewrite Rpow_mult_distr; field; lra).
  assert (1 <= 2 ^ j) by (apply pow_R1_Rle; lra). assert (/ (2 * (18205 / 10000) ^ 2) <= 1) by lra. nra.
Qed.
Lemma kap2 j : kap j = 2 * kap (S j). Proof. assert (0 < 2 ^ j) by (apply pow_lt; lra). simpl. field. lra. Qed.
Lemma kap4 j : kap j = 4 * kap (S (S j)). Proof. rewrite (kap2 j), (kap2 (S j)). ring. Qed.
Lemma kap_half j : kap (S j) = kap j / 2. Proof. rewrite (kap2 j). field. apply pow_nonzero. lra. Qed.
Definition from (i : nat) (r : R) : Prop := forall j, (i <= j)%nat -> W (kap j) r.
Lemma from_mono i r r' : r <= r' -> from i r -> from i r'. Proof. intros H F j Hj. apply (W_mono _ r); [exact H|apply F, Hj]. Qed.
Lemma from_le i i' r : (i <= i')%nat -> from i r -> from i' r. Proof. intros H F j Hj. apply F. lia. Qed.
Lemma one_step j p r h : W (kap j) p -> W (kap (S (S j))) r -> 0 <= p < 1 -> 0 <= r < 1 -> (p * p + r) / 2 <= h <= 9 / 20 -> W (kap (S j)) (h + 2 * h ^ 3).
Proof.
  intros A B. apply W_step; [apply kap_has|rewrite <- kap2; apply kap_has|rewrite <- kap_half; apply kap_has|rewrite <- kap2; exact A|rewrite <- kap_half; exact B].
Qed.
Lemma from_0 : from 0 (1 / 3).
Proof.
  assert (H0 : W (kap 0) (1 / 3)) by (replace (kap 0) with k0 by (simpl; field); apply base, Hk0).
  assert (H2 : W (kap 2) (1 / 3)) by (apply W_quad; rewrite <- kap4; [apply kap_has|exact H0]).
  assert (H1 : W (kap 1) (1 / 3)). { apply (W_mono _ (2 / 9 + 2 * (2 / 9) ^ 3)); [lra|]. apply (one_step 0 (1 / 3) (1 / 3)); try assumption; lra. }
  assert (K : forall j, W (kap j) (1 / 3) /\ W (kap (S j)) (1 / 3)). { induction j as [|j [IH IH']]; [split; assumption|]. split; [exact IH'|]. apply W_quad; rewrite <- kap4; [apply kap_has|exact IH]. }
  intros j _. apply K.
Qed.
Lemma from_step i p r h : from i p -> from (S i) r -> 0 <= p < 1 -> 0 <= r < 1 -> (p * p + r) / 2 <= h <= 9 / 20 -> from (S i) (h + 2 * h ^ 3).
Proof. intros A B Hp Hr Hh j Hj. destruct j as [|j]; [lia|]. apply (one_step j p r); try assumption; [apply A; lia|apply B; lia]. Qed.
Lemma settle i p : from i p -> 0 <= p <= 1 / 3 -> forall n, from (S i) (3 / 2 * (p * p) + (5 / 8) ^ n / 3).
Proof.
  intros A Hp. assert (Pp : 0 <= p * p <= 1 / 9) by nra. set (a := p * p) in *. induction n as [|n IH].
  - apply (from_mono _ (1 / 3)); [simpl; lra|]. apply (from_le 0); [lia|apply from_0].
  - assert (E : 0 <= (5 / 8) ^ n <= 1) by (split; [apply pow_le; lra|apply Rle_trans with (1 ^ n); [apply pow_incr; lra|rewrite pow1; lra]]). set (e := (5 / 8) ^ n) in *. change ((5 / 8) ^ S n) with (5 / 8 * e).
    set (h := 5 / 4 * a + e / 6). assert (Hh : 0 <= h <= 11 / 36) by (unfold h; lra).
    apply (from_mono _ (h + 2 * h ^ 3)).
    + assert (h ^ 2 <= 95 / 1000) by (simpl; nra). replace (h + 2 * h ^ 3) with (h * (1 + 2 * h ^ 2)) by ring. apply Rle_trans with (h * (119 / 100)); [apply Rmult_le_compat_l; lra|]. unfold h. lra.
    + apply (from_step i p (3 / 2 * a + e / 3)); [exact A|exact IH|lra|lra|unfold h; fold a; lra].
Qed.
Lemma settle_to i p r : from i p -> 0 <= p <= 1 / 3 -> 3 / 2 * (p * p) + / 10 ^ 14 <= r -> from (S i) r.
Proof.
  intros A Hp Hr. apply (from_mono _ (3 / 2 * (p * p) + (5 / 8) ^ 69 / 3)); [|apply settle; assumption].
  assert ((5 / 8) ^ 69 / 3 <= / 10 ^ 14); [|lra]. replace (5 / 8) with (5 * / 8) by field. rewrite Rpow_mult_distr, pow_inv. apply Rmult_le_reg_r with (10 ^ 14 * 8 ^ 69 * 3); [repeat apply Rmult_lt_0_compat; try apply pow_lt; lra|].
  assert (P8 : 0 < 8 ^ 69) by (apply pow_lt; lra). assert (P10 : 0 < 10 ^ 14) by (apply pow_lt; lra). replace (5 ^ 69 * / 8 ^ 69 / 3 * (10 ^ 14 * 8 ^ 69 * 3)) with (5 ^ 69 * 10 ^ 14) by (field; lra). replace (/ 10 ^ 14 * (10 ^ 14 * 8 ^ 69 * 3)) with (8 ^ 69 * 3) by (field; lra).
  replace (5 ^ 69) with (IZR (5 ^ Z.of_nat 69)) by (symmetry; apply pow_IZR). replace (10 ^ 14) with (IZR (10 ^ Z.of_nat 14)) by (symmetry; apply pow_IZR). replace (8 ^ 69) with (IZR (8 ^ Z.of_nat 69)) by (symmetry; apply pow_IZR).
  rewrite <- !mult_IZR. apply IZR_le. vm_compute. discriminate.
Qed.
(** a better bound for the first, with a bound for all the others *)
Lemma first i p r h r' : from i p -> from (S (S i)) r -> 0 <= p < 1 -> 0 <= r <= r' -> r < 1 -> (p * p + r) / 2 <= h <= 9 / 20 -> h + 2 * h ^ 3 <= r' -> from (S i) r'.
Proof.
  intros A B Hp Hr Hr1 Hh Hr' j Hj. destruct (Nat.eq_dec j (S i)) as [->|N].
  - apply (W_mono _ (h + 2 * h ^ 3)); [exact Hr'|]. apply (one_step i p r); try assumption; [apply A; lia|apply B; lia|lra].
  - apply (W_mono _ r); [lra|]. apply B. lia.
Qed.
Lemma from_4 : from 4 (/ 2 ^ 38).
Proof.
  assert (F0 := from_0).
  assert (F1 : from 1 (17 / 100)) by (apply (settle_to 0 (1 / 3)); [exact F0|lra|lra]).
  assert (F2 : from 2 (44 / 1000)) by (apply (settle_to 1 _ _ F1); lra).
  assert (F1' : from 1 (80 / 1000)) by (apply (first 0 (1 / 3) (44 / 1000) (78 / 1000)); try assumption; lra).
  assert (F2' : from 2 (1 / 100)) by (apply (settle_to 1 _ _ F1'); lra).
  assert (F1'' : from 1 (62 / 1000)) by (apply (first 0 (1 / 3) (1 / 100) (61 / 1000)); try assumption; lra).
  assert (F3 : from 3 (16 / 100000)) by (apply (settle_to 2 _ _ F2'); lra).
  assert (F2'' : from 2 (21 / 10000)) by (apply (first 1 (62 / 1000) (16 / 100000) (2005 / 1000000)); try assumption; lra).
  assert (F3' : from 3 (7 / 1000000)) by (apply (settle_to 2 _ _ F2''); lra).
  assert (F4 : from 4 (8 / 10 ^ 11)) by (apply (settle_to 3 _ _ F3'); lra).
  assert (F3'' : from 3 (22071 / 10 ^ 10)) by (apply (first 2 (21 / 10000) (8 / 10 ^ 11) (22051 / 10 ^ 10)); try assumption; lra).
  assert (F4' : from 4 (8 / 10 ^ 12)) by (apply (settle_to 3 _ _ F3''); lra).
  assert (F5 : from 5 (2 / 10 ^ 14)) by (apply (settle_to 4 _ _ F4'); lra).
  apply (first 3 (22071 / 10 ^ 10) (2 / 10 ^ 14) (25 / 10 ^ 13)); try assumption; lra.
Qed.
End Iter.

(** for the standard deviations of the sampler *)
Lemma centre_free s c c' G G' : 12778 / 10000 <= s <= 18205 / 10000 -> gauss_sum s c G -> gauss_sum s c' G' -> G * (1 - / 2 ^ 38) <= G' * (1 + / 2 ^ 38).
Proof.
  intros Hs HG HG'. set (k0 := 8 / s ^ 2). assert (S2 : 0 < s ^ 2) by (apply pow_lt; lra). assert (B : (12778 / 10000) ^ 2 <= s ^ 2 <= (18205 / 10000) ^ 2) by (split; apply pow_incr; lra).
  assert (Hk : 241 / 100 <= k0 <= 49 / 10). { unfold k0. split; apply Rmult_le_reg_r with (1 := S2); replace (8 / s ^ 2 * s ^ 2) with 8 by (field; lra); lra. }
  apply (from_4 k0 Hk 4%nat (le_n 4) c c'); [revert HG|revert HG']; rewrite th_gauss by lra; apply th_ext; try reflexivity; unfold k0; field; lra.
Qed.
