(** P_table.v -- the decimal literals of the FFT table are close to the roots of unity. *)
From Verif Require Import Base Ring Poly Spec SpecR P_brv P_cplx M_float M_exact M_table.
From Coq Require Import Ring_theory Ring Lra Psatz.
Open Scope R_scope.

Lemma mod2_tri u v A B : 0 <= A -> 0 <= B -> mod2 u <= A * A -> mod2 v <= B * B -> mod2 (Cadd u v) <= (A + B) * (A + B).
Proof.
  destruct u as [a b], v as [c d]. unfold mod2, Cadd. cbn [fst snd]. intros HA HB Hu Hv.
  assert (P : 0 <= c * c + d * d) by nra. assert (P2 : 0 <= a * a + b * b) by nra.
  assert (X : (a * c + b * d) * (a * c + b * d) <= (A * B) * (A * B)).
  { assert (Y : (a * c + b * d) * (a * c + b * d) <= (a * a + b * b) * (c * c + d * d)) by (pose proof (Rle_0_sqr (a * d - b * c)) as HH; unfold Rsqr in HH; lra).
    eapply Rle_trans; [exact Y|]. replace (A * B * (A * B)) with ((A * A) * (B * B)) by ring. apply Rmult_le_compat; assumption. }
  assert (W : a * c + b * d <= A * B). { assert (0 <= A * B) by (apply Rmult_le_pos; assumption). nra. }
  nra.
Qed.

(** exact table *)
Definition tz (k : nat) : Cx := cis (PI * INR (brv 10 k) / 1024).
Lemma tz_sq k : (k < 512)%nat -> Cmul (tz (2 * k)) (tz (2 * k)) = tz k.
Proof.
  intros Hk. unfold tz. rewrite cis_add. f_equal. rewrite brv_even. rewrite (brv_low 9 k) by (exact Hk). rewrite mult_INR. change (INR 2) with 2. field.
Qed.
Lemma tz_odd k : tz (2 * k + 1) = Cmul (0, 1) (tz (2 * k)).
Proof.
  unfold tz. rewrite brv_even, brv_odd, plus_INR, INR_pow2.
  replace (0, 1) with (cis (PI / 2)) by (unfold cis; rewrite cos_PI2, sin_PI2; reflexivity).
  rewrite cis_add. f_equal. field.
Qed.
Lemma tz_quadrant k : 0 <= fst (tz (2 * k)) /\ 0 <= snd (tz (2 * k)) /\ mod2 (tz (2 * k)) = 1.
Proof.
  unfold tz. rewrite brv_even. assert (L := brv_lt 9 k). apply lt_INR in L. rewrite INR_pow2 in L.
  assert (P := PI_RGT_0). assert (Q := pos_INR (brv 9 k)). set (x := INR _) in *. clearbody x. cbn [pow] in L.
  unfold cis. cbn [fst snd]. split; [apply cos_ge_0; nra|]. split; [apply sin_ge_0; nra|].
  unfold mod2. cbn [fst snd]. pose proof (sin2_cos2 (PI * x / 1024)). unfold Rsqr in *. lra.
Qed.

Lemma sq_le_abs x r : 0 <= r -> x * x <= r * r -> - r <= x <= r.
Proof. intros H1 H2. split; nra. Qed.

(** halving the angle: an approximate square root of an approximation *)
Lemma half_angle (y s x : Cx) eps del : 0 <= eps <= 9 / 10 * del -> del <= 1 / 1000 ->
  0 <= fst s -> 0 <= snd s -> mod2 s = 1 -> 0 <= fst y -> 0 <= snd y ->
  mod2 (Csub x (Cmul s s)) <= del * del -> mod2 (Csub (Cmul y y) x) <= eps * eps -> mod2 (Csub y s) <= del * del.
Proof.
  intros He Hd S1 S2 S3 Y1 Y2 H1 H2.
  assert (T := mod2_tri _ _ eps del ltac:(lra) ltac:(lra) H2 H1).
  replace (Cadd (Csub (Cmul y y) x) (Csub x (Cmul s s))) with (Csub (Cmul y y) (Cmul s s)) in T by (apply Cx_eq; cx; ring). clear H1 H2.
  assert (T' : mod2 (Csub (Cmul y y) (Cmul s s)) <= 361 / 100 * (del * del)) by nra. clear T.
  destruct y as [a b], s as [c d]. unfold mod2, Csub, Cmul in *. cbn [fst snd] in *.
  set (e := (a - c) * (a - c) + (b - d) * (b - d)). set (p := (a + c) * (a + c) + (b + d) * (b + d)).
  assert (Epe : e * p <= 361 / 100 * (del * del)). { eapply Rle_trans; [|exact T']. right. unfold e, p. ring. } clear T'.
  assert (P0 : 0 <= e) by (unfold e; apply Rplus_le_le_0_compat; apply Rle_0_sqr).
  assert (Hp : 1 <= p). { unfold p. assert (0 <= a * c) by (apply Rmult_le_pos; assumption). assert (0 <= b * d) by (apply Rmult_le_pos; assumption). pose proof (Rle_0_sqr a) as A1. pose proof (Rle_0_sqr b) as A2. unfold Rsqr in A1, A2. lra. }
  assert (He1 : e <= 361 / 100 * (del * del)) by nra.
  assert (Xa : - (2 * del) <= a - c <= 2 * del) by (apply sq_le_abs; [lra|]; unfold e in He1; pose proof (Rle_0_sqr (b - d)) as A1; pose proof (Rle_0_sqr del) as A2; unfold Rsqr in A1, A2; lra).
  assert (Xb : - (2 * del) <= b - d <= 2 * del) by (apply sq_le_abs; [lra|]; unfold e in He1; pose proof (Rle_0_sqr (a - c)) as A1; pose proof (Rle_0_sqr del) as A2; unfold Rsqr in A1, A2; lra).
  assert (C1 : c <= 1) by nra. assert (D1 : d <= 1) by nra.
  assert (Z1 : - (2 * del) <= c * (a - c)) by nra. assert (Z2 : - (2 * del) <= d * (b - d)) by nra.
  assert (Ep : p = 4 * (c * c + d * d) + 4 * (c * (a - c) + d * (b - d)) + e) by (unfold p, e; ring). rewrite S3 in Ep.
  assert (Hp2 : 39 / 10 <= p) by lra. clear Ep Z1 Z2 Xa Xb.
  change (e <= del * del). clearbody e p. nra.
Qed.

(** the integers: literals scaled by 10^19 (the literal 6.1e-17 of entry 1 becomes 0 and is treated apart) *)
Definition SC : Z := 10 ^ 19.
Definition p10 (k : Z) : Z := match k with 16 => 1000 | 17 => 100 | 15 => 10000 | _ => 10 ^ (19 - k) end%Z.
Definition sc (e : Z * Z) : Z := (fst e * p10 (snd e))%Z.
Lemma p10_pow k : p10 k = (10 ^ (19 - k))%Z.
Proof. unfold p10. repeat (match goal with |- context [match ?x with _ => _ end] => destruct x end; try reflexivity). Qed.
Definition lit (k : nat) : Z * Z := let e := nth k table_literals ((0, 0), (0, 0))%Z in (sc (fst e), sc (snd e)).
(** rotate odd entries by -i into the first quadrant *)
Definition good_root (p : Z * Z) (x : Z * Z) : bool :=
  let '(a, b) := p in let '(c, d) := x in
  ((0 <=? a) && (0 <=? b) && (let u := (a - b) * (a + b) - c * SC in let v := 2 * (a * b) - d * SC in u * u + v * v <=? 81 * 10 ^ 44))%Z.
Definition rot (p : Z * Z) : Z * Z := (snd p, (- fst p)%Z).
Lemma table_check : forallb (fun k => good_root (lit (2 * k)) (lit k) && good_root (rot (lit (2 * k + 1))) (lit k)) (seq 1 511) = true.
Proof. vm_compute. reflexivity. Qed.
Lemma exps_check : forallb (fun e => ((0 <=? snd (fst e)) && (snd (fst e) <=? 19) && (0 <=? snd (snd e)) && (snd (snd e) <=? 19))%Z) (firstn 1 table_literals ++ skipn 2 table_literals) = true.
Proof. vm_compute. reflexivity. Qed.
Lemma literals_length : length table_literals = 1024%nat. Proof. reflexivity. Qed.

(** values *)
Definition lr (p : Z * Z) : Cx := (IZR (fst p) / IZR SC, IZR (snd p) / IZR SC).
Lemma SC_pos : 0 < IZR SC. Proof. apply IZR_lt. reflexivity. Qed.
Lemma flit_sc m k : (0 <= k <= 19)%Z -> flit RF m k = IZR (sc (m, k)) / IZR SC.
Proof.
  intros Hk. change (IZR m / IZR (10 ^ k) = IZR (m * p10 k) / IZR SC :> R). rewrite p10_pow. unfold SC. replace (10 ^ 19)%Z with (10 ^ k * 10 ^ (19 - k))%Z by (rewrite <- Z.pow_add_r by lia; f_equal; lia).
  rewrite !mult_IZR. assert (A : (0 < 10 ^ k)%Z) by (apply Z.pow_pos_nonneg; lia). assert (B : (0 < 10 ^ (19 - k))%Z) by (apply Z.pow_pos_nonneg; lia).
  apply IZR_lt in A. apply IZR_lt in B. set (x := IZR (10 ^ k)) in *. set (y := IZR (10 ^ (19 - k))) in *. field. lra.
Qed.
Lemma source_nth k : (k < 1024)%nat -> k <> 1%nat -> nth k (source_table RF) Czero = lr (lit k).
Proof.
  intros Hk Hk1. unfold source_table. set (f := fun e : Z * Z * (Z * Z) => _).
  rewrite (nth_indep _ Czero (f ((0, 0), (0, 0))%Z)) by (rewrite map_length, literals_length; exact Hk). rewrite map_nth. unfold f, lr, lit.
  assert (C := exps_check). rewrite forallb_forall in C. specialize (C (nth k table_literals ((0, 0), (0, 0))%Z)).
  assert (I : In (nth k table_literals ((0, 0), (0, 0))%Z) (firstn 1 table_literals ++ skipn 2 table_literals)).
  { destruct k as [|[|k]]; [left; reflexivity|lia|]. apply in_or_app. right.
    rewrite <- (firstn_skipn 2 table_literals) at 1. rewrite app_nth2 by (rewrite firstn_length, literals_length; cbn [Nat.min]; lia).
    apply nth_In. rewrite skipn_length, literals_length, firstn_length, literals_length. cbn [Nat.min]. lia. }
  specialize (C I). clear I.
  destruct (nth k table_literals ((0, 0), (0, 0))%Z) as [[m e] [m' e']]. cbn [fst snd] in *. rewrite !flit_sc by lia. reflexivity.
Qed.
Lemma scaled_root (a b c d : Z) : (0 <= a)%Z -> (0 <= b)%Z ->
  (let u := (a - b) * (a + b) - c * SC in let v := 2 * (a * b) - d * SC in u * u + v * v <= 81 * 10 ^ 44)%Z ->
  mod2 (Csub (Cmul (lr (a, b)) (lr (a, b))) (lr (c, d))) <= (9 / 10000000000000000) * (9 / 10000000000000000).
Proof.
  intros Ha Hb H. cbv zeta in H. replace ((a - b) * (a + b))%Z with (a * a - b * b)%Z in H by ring. replace (2 * (a * b))%Z with (2 * a * b)%Z in H by ring. unfold lr, mod2, Csub, Cmul. cbn [fst snd].
  assert (P := SC_pos).
  assert (E1 : IZR a / IZR SC * (IZR a / IZR SC) - IZR b / IZR SC * (IZR b / IZR SC) - IZR c / IZR SC = IZR (a * a - b * b - c * SC) / (IZR SC * IZR SC)).
  { rewrite !minus_IZR, !mult_IZR. set (S := IZR SC) in *. field. lra. }
  assert (E2 : IZR a / IZR SC * (IZR b / IZR SC) + IZR b / IZR SC * (IZR a / IZR SC) - IZR d / IZR SC = IZR (2 * a * b - d * SC) / (IZR SC * IZR SC)).
  { rewrite !minus_IZR, !mult_IZR. set (S := IZR SC) in *. field. lra. }
  rewrite E1, E2. clear E1 E2. apply IZR_le in H. rewrite plus_IZR, !(mult_IZR (_ - _)) in H.
  set (u := IZR (a * a - b * b - c * SC)) in *. set (v := IZR (2 * a * b - d * SC)) in *.
  assert (E : u / (IZR SC * IZR SC) * (u / (IZR SC * IZR SC)) + v / (IZR SC * IZR SC) * (v / (IZR SC * IZR SC)) = (u * u + v * v) / (IZR SC * IZR SC * (IZR SC * IZR SC))).
  { set (S := IZR SC) in *. field. lra. }
  rewrite E. rewrite <- !mult_IZR in *. set (S4 := (SC * SC * (SC * SC))%Z).
  assert (S4p : 0 < IZR S4) by (apply IZR_lt; reflexivity).
  apply (Rmult_le_reg_r (IZR S4)); [exact S4p|]. unfold Rdiv at 1. rewrite Rmult_assoc, Rinv_l, Rmult_1_r by lra.
  eapply Rle_trans; [exact H|]. right.
  replace (9 / 10000000000000000 * (9 / 10000000000000000) * IZR S4) with (IZR (81 * S4) / IZR (10000000000000000 * 10000000000000000)) by (rewrite !mult_IZR; field).
  replace (81 * S4)%Z with ((81 * 10 ^ 44) * (10000000000000000 * 10000000000000000))%Z by reflexivity.
  rewrite (mult_IZR (_ * 10 ^ 44)). unfold Rdiv. rewrite Rmult_assoc, Rinv_r, Rmult_1_r by (apply not_0_IZR; discriminate). reflexivity.
Qed.

Definition del : R := 1 / 1000000000000000.
Lemma table_close k : (k < 1024)%nat -> mod2 (Csub (lr (lit k)) (tz k)) <= del * del.
Proof.
  induction k as [k IH] using (well_founded_induction lt_wf). intros Hk.
  destruct k as [|[|k]].
  - replace (Csub (lr (lit 0)) (tz 0)) with Czero; [unfold mod2, Czero, del; cbn [fst snd]; lra|].
    unfold tz. change (brv 10 0) with 0%nat. replace (PI * INR 0 / 1024) with 0 by (simpl; field). rewrite cis_0.
    change (lit 0) with (10 ^ 19, 0)%Z. unfold lr. cbn [fst snd]. change (10 ^ 19)%Z with SC. assert (P := SC_pos). apply Cx_eq; unfold Csub, Cone, Czero; cbn [fst snd]; field; lra.
  - unfold tz. change (brv 10 1) with 512%nat. replace (PI * INR 512 / 1024) with (PI / 2) by (rewrite INR_IZR_INZ; cbn [Z.of_nat]; change (Z.of_nat 512) with 512%Z; field).
    unfold cis. rewrite cos_PI2, sin_PI2. change (lit 1) with (0, SC)%Z. unfold lr, mod2, Csub, del. cbn [fst snd].
    replace (IZR SC / IZR SC) with 1 by (field; assert (P := SC_pos); lra). lra.
  - assert (C := table_check). rewrite forallb_forall in C.
    set (j := ((S (S k)) / 2)%nat). assert (Hj : (1 <= j < 512)%nat).
    { unfold j. split; [apply Nat.div_le_lower_bound; lia|apply Nat.div_lt_upper_bound; lia]. }
    specialize (C j ltac:(apply in_seq; lia)). apply andb_prop in C. destruct C as [C0 C1].
    specialize (IH j ltac:(unfold j; apply Nat.div_lt; lia) ltac:(lia)).
    assert (Hq := tz_quadrant j). destruct Hq as [Q1 [Q2 Q3]].
    assert (D1 : 0 <= 9 / 10000000000000000 <= 9 / 10 * del) by (unfold del; lra). assert (D2 : del <= 1 / 1000) by (unfold del; lra).
    rewrite <- tz_sq in IH by lia.
    assert (Hk2 : S (S k) = (2 * j)%nat \/ S (S k) = (2 * j + 1)%nat).
    { unfold j. assert (X := Nat.div_mod (S (S k)) 2 ltac:(lia)). assert (Y := Nat.mod_upper_bound (S (S k)) 2 ltac:(lia)). lia. }
    destruct Hk2 as [-> | ->].
    + unfold good_root in C0. destruct (lit (2 * j)) as [a b]. destruct (lit j) as [c d].
      apply andb_prop in C0. destruct C0 as [C0 C2]. apply andb_prop in C0. destruct C0 as [Ca Cb]. apply Z.leb_le in Ca, Cb, C2.
      apply (half_angle _ _ (lr (c, d)) _ _ D1 D2 Q1 Q2 Q3); [| |exact IH|exact (scaled_root a b c d Ca Cb C2)];
        unfold lr; cbn [fst snd]; apply Rmult_le_pos; [apply IZR_le; assumption|left; apply Rinv_0_lt_compat, SC_pos|apply IZR_le; assumption|left; apply Rinv_0_lt_compat, SC_pos].
    + unfold good_root, rot in C1. destruct (lit (2 * j + 1)) as [b a]. destruct (lit j) as [c d]. cbn [fst snd] in C1.
      apply andb_prop in C1. destruct C1 as [C1 C2]. apply andb_prop in C1. destruct C1 as [Ca Cb]. apply Z.leb_le in Ca, Cb, C2.
      assert (X : mod2 (Csub (lr (a, - b)%Z) (tz (2 * j))) <= del * del).
      { apply (half_angle _ _ (lr (c, d)) _ _ D1 D2 Q1 Q2 Q3); [| |exact IH|exact (scaled_root a (- b) c d Ca Cb C2)];
        unfold lr; cbn [fst snd]; apply Rmult_le_pos; [apply IZR_le; assumption|left; apply Rinv_0_lt_compat, SC_pos|apply IZR_le; assumption|left; apply Rinv_0_lt_compat, SC_pos]. }
      rewrite tz_odd. eapply Rle_trans; [|exact X]. right. unfold lr, mod2, Csub, Cmul. cbn [fst snd]. rewrite opp_IZR. unfold Rdiv. ring.
Qed.
Lemma source_close k : (k < 1024)%nat -> mod2 (Csub (nth k (source_table RF) Czero) (nth k exact_table Czero)) <= del * del.
Proof.
  intros Hk. rewrite table_nth, zeta_pow by exact Hk. destruct (Nat.eq_dec k 1) as [->|H1]; [|rewrite source_nth by assumption; apply table_close; exact Hk].
  change (brv 10 1) with 512%nat. replace (PI * INR 512 / 1024) with (PI / 2) by (rewrite INR_IZR_INZ; change (Z.of_nat 512) with 512%Z; field).
  unfold cis. rewrite cos_PI2, sin_PI2. change (nth 1 (source_table RF) Czero) with (IZR 6123233995736766 / IZR (10000000000000000 * 10000000000000000), 10 / 10).
  unfold mod2, Csub, del. cbn [fst snd]. rewrite mult_IZR. lra.
Qed.
Lemma source_length F : length (source_table F) = 1024%nat.
Proof. unfold source_table. rewrite map_length. apply literals_length. Qed.
Lemma source_distance k : (k < 1024)%nat -> sqrt (mod2 (Csub (nth k (source_table RF) Czero) (cis (PI * INR (brv 10 k) / 1024)))) <= 1 / 1000000000000000.
Proof.
  intros Hk. assert (H := source_close k Hk). rewrite table_nth, zeta_pow in H by exact Hk. apply sqrt_le_1_alt in H. rewrite sqrt_square in H by (unfold del; lra). exact H.
Qed.
