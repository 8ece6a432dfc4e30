(** P_ff.v -- proofs about M_ff.v. *)
From Verif Require Import Base Spec M_ff.
From Coq Require Import ZifyBool ZifyNat ZifyN.
Ltac Zify.zify_post_hook ::= Z.div_mod_to_equations.
Open Scope Z_scope.

Lemma ff_correct v : 0 <= v < 65536 -> ff v = v mod q.
Proof. unfold ff, Q, q; intros H. destruct (Z.ltb_spec v (12289)); lia. Qed.

Lemma ff_canon v : 0 <= v -> canon (ff v).
Proof. unfold canon, ff, Q, q; intros H. destruct (Z.ltb_spec v (12289)); lia. Qed.

Lemma ff_add_correct a b : canon a -> canon b -> ff_add a b = (a + b) mod q.
Proof. unfold canon, ff_add, ff, u16, b2z, Q, q; intros Ha Hb.
  destruct (Z.geb_spec ((a + b) mod 65536) (12289));
  match goal with |- (if ?c then _ else _) = _ => destruct c eqn:E end; lia. Qed.

Lemma ff_addc_correct a b : canon a -> canon b -> ff_addc a b = (a + b) mod q.
Proof. unfold canon, ff_addc, u16, b2z, Q, q; intros Ha Hb.
  destruct (Z.geb_spec ((a + b) mod 65536) (12289)); lia. Qed.

(** += on a value below 2^14 and a canonical value: congruent, stays below 2^14. *)
Lemma ff_addc_lt14 a b : lt14 a -> canon b -> lt14 (ff_addc a b) /\ (ff_addc a b) mod q = (a + b) mod q.
Proof. unfold lt14, canon, ff_addc, u16, b2z, Q, q; intros Ha Hb.
  destruct (Z.geb_spec ((a + b) mod 65536) (12289)); split; lia. Qed.

Lemma ff_add_lt14 a b : lt14 a -> canon b -> ff_add a b = (a + b) mod q.
Proof. unfold lt14, canon, ff_add, ff, u16, b2z, Q, q; intros Ha Hb.
  destruct (Z.geb_spec ((a + b) mod 65536) (12289));
  match goal with |- (if ?c then _ else _) = _ => destruct c eqn:E end; lia. Qed.

Lemma ff_neg_correct a : canon a -> ff_neg a = (- a) mod q.
Proof. unfold canon, ff_neg, ff, u16, Q, q; intros Ha.
  match goal with |- (if ?c then _ else _) = _ => destruct c eqn:E end; lia. Qed.

Lemma mod_canon x : canon (x mod q).
Proof. unfold canon, q; lia. Qed.

Lemma ff_neg_canon a : canon a -> canon (ff_neg a).
Proof. intros H; rewrite ff_neg_correct by exact H; apply mod_canon. Qed.

Lemma ff_sub_lt14 a b : lt14 a -> canon b -> ff_sub a b = (a - b) mod q.
Proof.
  intros Ha Hb. unfold ff_sub. rewrite ff_add_lt14; [|exact Ha|apply ff_neg_canon; exact Hb].
  rewrite ff_neg_correct by exact Hb. rewrite Z.add_mod_idemp_r by (unfold q; lia). reflexivity.
Qed.

Lemma canon_lt14 a : canon a -> lt14 a.
Proof. unfold canon, lt14, q; lia. Qed.

Lemma ff_sub_correct a b : canon a -> canon b -> ff_sub a b = (a - b) mod q.
Proof. intros Ha Hb; apply ff_sub_lt14; [apply canon_lt14|]; assumption. Qed.

Lemma barrett_correct a b : lt14 a -> lt14 b -> barrett a b = (a * b) mod q.
Proof.
  unfold lt14; intros Ha Hb.
  assert (H : 0 <= a * b < 268435456) by nia.
  unfold barrett. replace (u32 a) with a by (unfold u32; rewrite Z.mod_small; lia).
  replace (u32 b) with b by (unfold u32; rewrite Z.mod_small; lia).
  set (x := a * b) in *. clearbody x. clear Ha Hb a b.
  unfold u32, u64, u16, R, q, b2z, Q. rewrite (Z.mod_small x) by lia.
  rewrite (Z.mod_small (x * 21843)) by lia.
  assert (H4 : 0 <= x * 21843 / 268435456 < 2 ^ 15) by lia.
  rewrite (Z.mod_small (x * 21843 / 268435456)) by lia.
  set (t := x * 21843 / 268435456) in *.
  assert (Ht : 0 <= x - t * 12289 < 2 * 12289) by (unfold t; lia).
  clearbody t.
  rewrite (Z.mod_small (t * 12289)) by lia.
  rewrite (Z.mod_small (x - t * 12289) (4294967296)) by lia.
  rewrite (Z.mod_small (x - t * 12289) (65536)) by lia.
  destruct (Z.geb_spec (x - t * 12289) 12289); lia.
Qed.

Lemma ff_mulc_correct a b : lt14 a -> lt14 b -> ff_mulc a b = (a * b) mod q.
Proof. exact (barrett_correct a b). Qed.

Lemma ff_mul_correct a b : lt14 a -> lt14 b -> ff_mul a b = (a * b) mod q.
Proof.
  intros Ha Hb; unfold ff_mul; rewrite barrett_correct by assumption.
  unfold ff, Q, q. destruct (Z.ltb_spec ((a * b) mod 12289) (12289)); lia.
Qed.

(** ** xgcd / inverse *)
Ltac Zify.zify_post_hook ::= idtac.

(* iteration on Z to avoid large nat literals *)
Fixpoint allz (p : positive) (lo : Z) (f : Z -> bool) : bool :=
  match p with
  | xH => f lo
  | xO p' => allz p' lo f && allz p' (lo + Z.pos p') f
  | xI p' => f lo && (allz p' (lo + 1) f && allz p' (lo + 1 + Z.pos p') f)
  end.

Lemma allz_spec p lo f : allz p lo f = true -> forall x, lo <= x < lo + Z.pos p -> f x = true.
Proof.
  revert lo; induction p as [p IH|p IH|]; simpl; intros lo H x Hx.
  - apply andb_prop in H; destruct H as [H0 H]. apply andb_prop in H; destruct H as [H1 H2].
    destruct (Z.eq_dec x lo) as [->|]; [exact H0|].
    destruct (Z_lt_le_dec x (lo + 1 + Z.pos p)); [apply (IH _ H1)|apply (IH _ H2)]; lia.
  - apply andb_prop in H; destruct H as [H1 H2].
    destruct (Z_lt_le_dec x (lo + Z.pos p)); [apply (IH _ H1)|apply (IH _ H2)]; lia.
  - replace x with lo by lia; exact H.
Qed.

Lemma q_sweep : allz 109 2 (fun d => negb (q mod d =? 0)) = true.
Proof. vm_cast_no_check (eq_refl true). Qed.

(** q has no divisor in (1,q): q is prime. *)
Lemma q_no_divisor d : 1 < d < q -> q mod d <> 0.
Proof.
  assert (S : forall d, 2 <= d <= 110 -> q mod d <> 0).
  { intros e He. assert (H := allz_spec _ _ _ q_sweep e ltac:(lia)). cbv beta in H. intros H0. rewrite H0 in H. discriminate. }
  intros Hd H0. destruct (Z_le_gt_dec d 110) as [L|G]; [apply (S d); [lia|exact H0]|].
  assert (E : q = d * (q / d)) by (assert (X := Z.div_mod q d); lia).
  assert (B : 2 <= q / d <= 110).
  { set (k := q / d) in *. clearbody k. unfold q in *. nia. }
  apply (S (q / d) B). rewrite E at 1. rewrite Z.mul_comm. rewrite Z.mul_comm, Z.mod_mul; lia.
Qed.

Definition xinv (x : Z) (st : Z * Z * Z * Z * Z * Z) : Prop :=
  let '(r0, r1, s0, s1, t0, t1) := st in
  0 <= r1 < r0 /\ r0 <= q /\
  r0 = s0 * x + t0 * q /\ r1 = s1 * x + t1 * q /\
  Z.abs s1 * r0 + Z.abs s0 * r1 = q /\ Z.abs t1 * r0 + Z.abs t0 * r1 = x /\
  s0 * s1 <= 0 /\ t0 * t1 <= 0 /\ Z.abs s0 <= Z.abs s1.

Lemma abs_step a b k : a * b <= 0 -> 0 <= k -> Z.abs (a - k * b) = Z.abs a + k * Z.abs b.
Proof. intros H Hk. destruct (Z.abs_spec a) as [[? ->]|[? ->]], (Z.abs_spec b) as [[? ->]|[? ->]];
  destruct (Z.abs_spec (a - k * b)) as [[? ->]|[? ->]]; nia. Qed.

Lemma sign_step a b k : a * b <= 0 -> 0 <= k -> b * (a - k * b) <= 0.
Proof. intros H Hk. assert (0 <= k * (b * b)) by (apply Z.mul_nonneg_nonneg; [lia|apply Z.square_nonneg]). lia. Qed.

Lemma le_of_prod a r b c : 0 <= a -> 1 <= r -> 0 <= b -> a * r + b = c -> a <= c.
Proof. nia. Qed.

Lemma xgcd16_step_ok x st : canon x -> xinv x st ->
  let '(r0, r1, s0, s1, t0, t1) := st in r1 <> 0 ->
  xgcd16_step st = (r1, r0 mod r1, s1, s0 - r0 / r1 * s1, t1, t0 - r0 / r1 * t1) /\
  xinv x (xgcd16_step st).
Proof.
  destruct st as [[[[[r0 r1] s0] s1] t0] t1]. unfold xinv, canon, q.
  intros Hx (H1 & H2 & E0 & E1 & S & T & Ss & Ts & Sl) Hr.
  assert (D := Z.div_mod r0 r1 Hr). assert (M := Z.mod_pos_bound r0 r1 ltac:(lia)).
  assert (Hk : 1 <= r0 / r1) by (apply Z.div_le_lower_bound; lia).
  assert (As := abs_step s0 s1 (r0 / r1) Ss ltac:(lia)).
  assert (At := abs_step t0 t1 (r0 / r1) Ts ltac:(lia)).
  set (k := r0 / r1) in *. set (m := r0 mod r1) in *.
  assert (Ek : k = r0 / r1) by reflexivity. assert (Em : m = r0 mod r1) by reflexivity. clearbody k m.
  assert (Bk : k <= 12289) by (clear - D M Hk H1 H2 Hr; nia).
  assert (N1 : 0 <= Z.abs s0 * r1) by (apply Z.mul_nonneg_nonneg; lia).
  assert (N2 : 0 <= Z.abs t0 * r1) by (apply Z.mul_nonneg_nonneg; lia).
  assert (N3 : 0 <= Z.abs s1 * m) by (apply Z.mul_nonneg_nonneg; lia).
  assert (N4 : 0 <= Z.abs t1 * m) by (apply Z.mul_nonneg_nonneg; lia).
  assert (Bs1 : Z.abs s1 <= 12289) by (apply (le_of_prod _ r0 (Z.abs s0 * r1)); lia).
  assert (Bt1 : Z.abs t1 <= 12289) by (apply Z.le_trans with x; [apply (le_of_prod _ r0 (Z.abs t0 * r1))|]; lia).
  assert (S' : Z.abs (s0 - k * s1) * r1 + Z.abs s1 * m = 12289) by (rewrite As, <- S, D; ring).
  assert (T' : Z.abs (t0 - k * t1) * r1 + Z.abs t1 * m = x) by (rewrite At, <- T, D; ring).
  assert (Bs2 : Z.abs (s0 - k * s1) <= 12289) by (apply (le_of_prod _ r1 (Z.abs s1 * m)); lia).
  assert (Bt2 : Z.abs (t0 - k * t1) <= 12289) by (apply Z.le_trans with x; [apply (le_of_prod _ r1 (Z.abs t1 * m))|]; lia).
  assert (E : xgcd16_step (r0, r1, s0, s1, t0, t1) = (r1, m, s1, s0 - k * s1, t1, t0 - k * t1)).
  { unfold xgcd16_step. rewrite Z.quot_div_nonneg by lia. rewrite <- Ek.
    rewrite (i16_id k) by lia.
    replace (r0 - k * r1) with m by lia.
    rewrite (i16_id m) by lia. rewrite (i16_id (s0 - k * s1)), (i16_id (t0 - k * t1)) by lia. reflexivity. }
  rewrite E. split; [reflexivity|].
  repeat split; try lia; try (apply sign_step; [assumption|lia]).
  - rewrite E1 in D. rewrite E0 in D. replace m with (r0 - k * r1) by lia. rewrite E0, E1. ring.
  - rewrite As. assert (0 <= Z.abs s1) by lia. clear - H Hk Sl. nia.
Qed.

Lemma xgcd16_loop_ok x : canon x -> forall n r0 r1 s0 s1 t0 t1,
  xinv x (r0, r1, s0, s1, t0, t1) -> r0 * r1 < 2 ^ Z.of_nat n ->
  exists a b g, xgcd16_loop n (r0, r1, s0, s1, t0, t1) = Ok (a, b, g) /\
    g = a * x + b * q /\ 0 < g /\ (g | r0) /\ (g | r1) /\ Z.abs a <= q.
Proof.
  intros Hx n. induction n as [|n IH]; intros r0 r1 s0 s1 t0 t1 HI HB.
  - assert (r1 = 0) as -> by (destruct HI as (H1 & _); change (2 ^ Z.of_nat 0) with 1 in HB; nia).
    simpl. exists s0, t0, r0. destruct HI as (H1 & H2 & E0 & E1 & S & T & Ss & Ts & Sl).
    split; [reflexivity|]. repeat split; try lia; try apply Z.divide_refl; try apply Z.divide_0_r. nia.
  - cbn [xgcd16_loop]. destruct (Z.eqb_spec r1 0) as [->|Hr].
    + exists s0, t0, r0. destruct HI as (H1 & H2 & E0 & E1 & S & T & Ss & Ts & Sl).
      split; [reflexivity|]. repeat split; try lia; try apply Z.divide_refl; try apply Z.divide_0_r. nia.
    + assert (St := xgcd16_step_ok x _ Hx HI). cbn iota beta in St. destruct (St Hr) as [E HI'].
      rewrite E in HI' |- *.
      assert (HB' : r1 * (r0 mod r1) < 2 ^ Z.of_nat n).
      { destruct HI as (H1 & _). rewrite Nat2Z.inj_succ, Z.pow_succ_r in HB by lia.
        assert (D := Z.div_mod r0 r1 Hr). assert (M := Z.mod_pos_bound r0 r1 ltac:(lia)).
        assert (Hk : 1 <= r0 / r1) by (apply Z.div_le_lower_bound; lia).
        nia. }
      destruct (IH _ _ _ _ _ _ HI' HB') as (a & b & g & L & Eg & Pg & D1 & D2 & Ba).
      exists a, b, g. split; [exact L|]. repeat split; auto.
      rewrite (Z.div_mod r0 r1 Hr). apply Z.divide_add_r; [|exact D2]. apply Z.divide_mul_l; exact D1.
Qed.

Lemma xgcd16_correct x : canon x -> x <> 0 ->
  exists a b, xgcd16 x Q = Ok (a, b, 1) /\ a * x + b * q = 1 /\ Z.abs a < q.
Proof.
  intros Hx H0. unfold xgcd16. assert (Hx' : 0 < x < 12289) by (unfold canon, q in Hx; lia).
  rewrite (i16_id x), (i16_id Q) by (unfold Q; lia).
  cbn [xgcd16_loop]. change (Q =? 0) with false. cbv iota.
  assert (E : xgcd16_step (x, Q, 1, 0, 0, 1) = (Q, x, 0, 1, 1, 0)).
  { unfold xgcd16_step. rewrite Z.quot_small by (unfold Q; lia).
    change (i16 0) with 0. rewrite Z.mul_0_l, Z.sub_0_r. rewrite (i16_id x) by lia. reflexivity. }
  rewrite E.
  destruct (xgcd16_loop_ok x Hx 31%nat Q x 0 1 1 0) as (a & b & g & L & Eg & Pg & D1 & D2 & Ba).
  - unfold xinv, Q, q. repeat split; lia.
  - unfold Q. change (2 ^ Z.of_nat 31) with 2147483648. nia.
  - assert (g = 1) as ->.
    { destruct (Z.eq_dec g 1) as [|Ng]; [assumption|]. exfalso.
      apply Z.divide_pos_le in D2; [|lia].
      apply (q_no_divisor g); [unfold q; lia|]. apply Z.mod_divide; [lia|exact D1]. }
    exists a, b. split; [exact L|]. split; [lia|].
    destruct (Z.eq_dec (Z.abs a) q) as [Ea|]; [|lia]. exfalso.
    assert (Da : (q | 1)).
    { rewrite Eg. apply Z.divide_add_r; [apply Z.divide_mul_l|apply Z.divide_mul_r, Z.divide_refl].
      apply Z.divide_abs_r. rewrite Ea. apply Z.divide_refl. }
    apply Z.divide_pos_le in Da; unfold q in *; lia.
Qed.

Lemma ff_inv_correct a : canon a -> a <> 0 ->
  exists i, ff_inv a = Ok i /\ canon i /\ (a * i) mod q = 1.
Proof.
  intros Ha H0. destruct (xgcd16_correct a Ha H0) as (s & t & E & B & Bs).
  unfold ff_inv. destruct (Z.eqb_spec a 0); [lia|]. simpl b2z.
  assert (u16 (a + 0 * 1) = a) as -> by (unfold u16, canon, q in *; rewrite Z.mod_small; lia).
  rewrite E. cbn [bind].
  assert (Hs : (a * s) mod q = 1).
  { replace (a * s) with (1 + (- t) * q) by lia. rewrite Z.mod_add by (unfold q; lia). reflexivity. }
  set (t1 := u16 (b2z (s <? 0) * Q + s)).
  assert (Et1 : 0 <= t1 < q /\ t1 mod q = s mod q).
  { unfold t1, u16, b2z, Q, q in *. destruct (Z.ltb_spec s 0).
    - rewrite Z.mod_small by lia. split; [lia|]. rewrite Z.add_comm, Z.mul_1_l.
      replace (s + 12289) with (s + 1 * 12289) by lia. apply Z.mod_add; lia.
    - rewrite Z.mod_small by lia. split; [lia|]. f_equal; lia. }
  clearbody t1. destruct Et1 as [B1 E1].
  assert (t1 >=? Q = false) as -> by (unfold Q, q in *; lia). simpl b2z.
  assert (u16 (t1 - 0 * Q) = t1) as -> by (unfold u16, q in *; rewrite Z.mod_small; lia).
  assert (u16 (t1 - 0 * 1) = t1) as -> by (unfold u16, q in *; rewrite Z.mod_small; lia).
  exists t1. split; [|split].
  - f_equal. unfold ff, Q. unfold q in B1. destruct (Z.ltb_spec t1 12289); lia.
  - unfold canon; lia.
  - rewrite <- Z.mul_mod_idemp_r, E1, Z.mul_mod_idemp_r by (unfold q; lia). exact Hs.
Qed.

Lemma ff_inv_0 : ff_inv 0 = Ok 0.
Proof. reflexivity. Qed.

Lemma ff_div_correct a b : canon a -> canon b -> b <> 0 ->
  exists c, ff_div a b = Ok c /\ canon c /\ (c * b) mod q = a
            /\ (forall c', canon c' -> (c' * b) mod q = a -> c' = c).
Proof.
  intros Ha Hb H0. destruct (ff_inv_correct b Hb H0) as [i [E [Hi Hbi]]].
  unfold ff_div. rewrite E; simpl. exists (ff_mul a i).
  rewrite ff_mul_correct by (apply canon_lt14; assumption).
  split; [reflexivity|]. split; [apply mod_canon|]. split.
  - rewrite Z.mul_mod_idemp_l by (unfold q; lia).
    replace (a * i * b) with (a * (b * i)) by ring.
    rewrite <- Z.mul_mod_idemp_r by (unfold q; lia). rewrite Hbi, Z.mul_1_r.
    apply Z.mod_small; exact Ha.
  - intros c' Hc Hcb.
    rewrite <- Hcb. rewrite Z.mul_mod_idemp_l by (unfold q; lia).
    replace (c' * b * i) with (c' * (b * i)) by ring.
    rewrite <- Z.mul_mod_idemp_r by (unfold q; lia). rewrite Hbi, Z.mul_1_r.
    symmetry; apply Z.mod_small; exact Hc.
Qed.

Lemma ff_div_0 a : canon a -> ff_div a 0 = Ok 0.
Proof.
  intros Ha. unfold ff_div. rewrite ff_inv_0; simpl.
  rewrite ff_mul_correct; [rewrite Z.mul_0_r; reflexivity|apply canon_lt14; exact Ha|unfold lt14; lia].
Qed.

(** ** Power *)
Lemma mod_succ_bit n i : 0 <= i -> 0 <= n ->
  n mod 2 ^ (i + 1) = n mod 2 ^ i + 2 ^ i * b2z (Z.testbit n i).
Proof.
  intros Hi Hn. rewrite Z.pow_add_r by lia.
  assert (P : 0 < 2 ^ i) by (apply Z.pow_pos_nonneg; lia).
  change (2 ^ 1) with 2. rewrite Z.rem_mul_r by lia.
  rewrite <- (Z.testbit_spec' n i Hi). destruct (Z.testbit n i); reflexivity.
Qed.

Lemma pow_loop_correct a n k i base r :
  canon a -> 0 <= n -> 0 <= i ->
  base = (a ^ (2 ^ i)) mod q -> r = (a ^ (n mod 2 ^ (i + 1))) mod q ->
  pow_loop n k (i + 1) base r = (a ^ (n mod 2 ^ (i + 1 + Z.of_nat k))) mod q.
Proof.
  intros Ha Hn. revert i base r; induction k as [|k IH]; intros i base r Hi Hb Hr.
  - simpl. rewrite Z.add_0_r. exact Hr.
  - cbn [pow_loop].
    assert (Cb : canon base) by (rewrite Hb; apply mod_canon).
    assert (Cr : canon r) by (rewrite Hr; apply mod_canon).
    assert (E : ff_mul base base = (a ^ 2 ^ (i + 1)) mod q).
    { rewrite ff_mul_correct by (apply canon_lt14; assumption).
      rewrite Hb. rewrite <- Z.mul_mod by (unfold q; lia). f_equal.
      rewrite <- Z.pow_add_r by (apply Z.pow_nonneg; lia). f_equal.
      rewrite Z.pow_add_r by lia. lia. }
    replace (i + 1 + Z.of_nat (S k)) with ((i + 1) + 1 + Z.of_nat k) by lia.
    apply IH; [lia|exact E|].
    rewrite (mod_succ_bit n (i + 1)) by lia.
    set (m := n mod 2 ^ (i + 1)) in *.
    assert (Hm : 0 <= m) by (apply Z.mod_pos_bound, Z.pow_pos_nonneg; lia).
    assert (Hp : 0 <= 2 ^ (i + 1)) by (apply Z.pow_nonneg; lia).
    rewrite Z.pow_add_r by (unfold b2z; destruct (Z.testbit n (i + 1)); lia).
    destruct (Z.testbit n (i + 1)); simpl b2z.
    + rewrite ff_mul_correct; [|apply canon_lt14; exact Cr|apply canon_lt14; rewrite E; apply mod_canon].
      rewrite E, Hr, Z.mul_1_r. rewrite <- Z.mul_mod by (unfold q; lia). reflexivity.
    + rewrite ff_mul_correct; [|apply canon_lt14; exact Cr|unfold lt14, ff_one, ff, Q; simpl; lia].
      unfold ff_one, ff, Q; simpl Z.ltb; cbv iota. rewrite Z.mul_0_r.
      change (a ^ 0) with 1. rewrite Hr, Z.mul_mod_idemp_l by (unfold q; lia). reflexivity.
Qed.

Lemma ff_pow_correct a n : canon a -> 0 <= n -> ff_pow a n = (a ^ n) mod q.
Proof.
  intros Ha Hn. unfold ff_pow.
  destruct (Z.eq_dec n 0) as [->|Hn0].
  { reflexivity. }
  etransitivity; [apply (pow_loop_correct a n (bit_width n - 1)%nat 0 a); auto; try lia|].
  - change (2 ^ 0) with 1. rewrite Z.pow_1_r. symmetry; apply Z.mod_small; exact Ha.
  - change (0 + 1) with 1. rewrite Z.pow_1_r.
    rewrite Z.bit0_odd. rewrite Zmod_odd. destruct (Z.odd n); [rewrite Z.pow_1_r|]; symmetry; apply Z.mod_small;
      [exact Ha|unfold ff_one, ff, Q, q; simpl; lia].
  - f_equal. f_equal. apply Z.mod_small. split; [lia|].
    unfold bit_width. destruct (Z.eqb_spec n 0); [lia|].
    assert (L := Z.log2_nonneg n).
    replace (0 + 1 + Z.of_nat (S (Z.to_nat (Z.log2 n)) - 1)) with (Z.succ (Z.log2 n)) by lia.
    apply Z.log2_spec; lia.
Qed.

Lemma ff_eq_correct a b : canon a -> canon b -> ff_eq a b = true <-> a = b.
Proof.
  intros _ _. unfold ff_eq. rewrite Z.eqb_eq. apply Z.lxor_eq_0_iff.
Qed.

Lemma ff_shl_not_mul : exists a l, canon a /\ 0 <= l < 16 /\ exists r, ff_shl a l = Ok r /\ r <> (a * 2 ^ l) mod q.
Proof.
  exists 12288, 3. split; [unfold canon, q; lia|]. split; [lia|].
  eexists; split; [reflexivity|]. vm_compute. discriminate.
Qed.

Lemma ff_shl_exact a l : canon a -> 0 <= l <= 2 -> ff_shl a l = Ok ((a * 2 ^ l) mod q).
Proof.
  unfold canon; intros Ha Hl. unfold ff_shl.
  destruct ((0 <=? l) && (l <? 32)) eqn:E; [|lia].
  f_equal. rewrite Z.shiftl_mul_pow2 by lia.
  assert (Hp : 2 ^ l = 1 \/ 2 ^ l = 2 \/ 2 ^ l = 4).
  { assert (l = 0 \/ l = 1 \/ l = 2) as [E1 | [E1 | E1]] by lia; rewrite E1; auto. }
  unfold q in *. unfold u16. rewrite Z.mod_small by nia.
  apply ff_correct. nia.
Qed.

Lemma ff_random_canon draw : (forall i, 0 <= draw i < 65536) -> canon (ff_random draw).
Proof.
  intros H. unfold ff_random. generalize (2 ^ 10)%nat as k. generalize 0%nat as i.
  intros i k; revert i; induction k as [|k IH]; intros i; simpl; [unfold canon, q; lia|].
  destruct (Z.ltb_spec (draw i) Q); [|apply IH]. unfold canon, q, Q in *. specialize (H i). lia.
Qed.
