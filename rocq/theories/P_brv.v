(** P_brv.v -- bit reversal and the heap-shaped table of powers of a 2^(w+1)-th root of unity. *)
From Verif Require Import Base Spec Ring P_xform P_xring.
From Coq Require Import Ring_theory Ring.
Open Scope nat_scope.

Lemma div2_even v : (2 * v) / 2 = v.
Proof. rewrite Nat.mul_comm. apply Nat.div_mul; lia. Qed.
Lemma div2_odd v : (2 * v + 1) / 2 = v.
Proof. rewrite Nat.mul_comm, Nat.div_add_l by lia. simpl. lia. Qed.
Lemma mod2_even v : (2 * v) mod 2 = 0.
Proof. rewrite Nat.mul_comm. apply Nat.mod_mul; lia. Qed.
Lemma mod2_odd v : (2 * v + 1) mod 2 = 1.
Proof. rewrite Nat.add_comm, Nat.mul_comm, Nat.mod_add by lia. reflexivity. Qed.
Lemma parity v : v = 2 * (v / 2) \/ v = 2 * (v / 2) + 1.
Proof. assert (D := Nat.div_mod v 2 ltac:(lia)). assert (B := Nat.mod_upper_bound v 2 ltac:(lia)). lia. Qed.

Lemma brv_even w v : brv (S w) (2 * v) = brv w v.
Proof. cbn [brv]. rewrite mod2_even, div2_even. reflexivity. Qed.
Lemma brv_odd w v : brv (S w) (2 * v + 1) = 2 ^ w + brv w v.
Proof. cbn [brv]. rewrite mod2_odd, div2_odd. lia. Qed.

Lemma brv_lt w v : brv w v < 2 ^ w.
Proof.
  revert v; induction w as [|w IH]; intros v; cbn [brv]; [simpl; lia|].
  assert (B := Nat.mod_upper_bound v 2 ltac:(lia)). specialize (IH (v / 2)).
  rewrite Nat.pow_succ_r'. set (m := v mod 2) in *. clearbody m. assert (m = 0 \/ m = 1) as [-> | ->] by lia; lia.
Qed.

Lemma brv_low w v : v < 2 ^ w -> brv (S w) v = 2 * brv w v.
Proof.
  revert v; induction w as [|w IH]; intros v Hv.
  - simpl in Hv. assert (v = 0) by lia. subst; reflexivity.
  - destruct (parity v) as [E|E]; set (u := v / 2) in *; clearbody u; subst v.
    + rewrite !brv_even. apply IH. simpl in Hv; lia.
    + rewrite !brv_odd. rewrite IH by (simpl in Hv; lia). simpl; lia.
Qed.

Lemma brv_high w v : v < 2 ^ w -> brv (S w) (2 ^ w + v) = 1 + 2 * brv w v.
Proof.
  revert v; induction w as [|w IH]; intros v Hv.
  - simpl in Hv. assert (v = 0) by lia. subst; reflexivity.
  - destruct (parity v) as [E|E]; set (u := v / 2) in *; clearbody u; subst v; simpl in Hv.
    + replace (2 ^ S w + 2 * u) with (2 * (2 ^ w + u)) by (simpl; lia). rewrite !brv_even. apply IH; lia.
    + replace (2 ^ S w + (2 * u + 1)) with (2 * (2 ^ w + u) + 1) by (simpl; lia). rewrite !brv_odd.
      rewrite IH by lia. simpl; lia.
Qed.

Lemma brv_lift w l v : l <= w -> v < 2 ^ l -> brv w v = 2 ^ (w - l) * brv l v.
Proof.
  intros Hl Hv. induction w as [|w IH].
  - assert (l = 0) by lia. subst l. simpl. lia.
  - destruct (Nat.eq_dec l (S w)) as [->|Hn].
    + rewrite Nat.sub_diag. simpl; lia.
    + rewrite brv_low. 2: { apply Nat.lt_le_trans with (2 ^ l); [exact Hv|]. apply Nat.pow_le_mono_r; lia. }
      rewrite IH by lia. replace (S w - l) with (S (w - l)) by lia. simpl; lia.
Qed.

Lemma brv_compl m b : b < 2 ^ m -> brv m b + brv m (2 ^ m - 1 - b) = 2 ^ m - 1.
Proof.
  revert b; induction m as [|m IH]; intros b Hb.
  - reflexivity.
  - assert (P := pow2_pos m).
    destruct (parity b) as [E|E]; set (u := b / 2) in *; clearbody u; subst b; simpl in Hb.
    + replace (2 ^ S m - 1 - 2 * u) with (2 * (2 ^ m - 1 - u) + 1) by (simpl; lia).
      rewrite brv_even, brv_odd. specialize (IH u ltac:(lia)). simpl; lia.
    + replace (2 ^ S m - 1 - (2 * u + 1)) with (2 * (2 ^ m - 1 - u)) by (simpl; lia).
      rewrite brv_even, brv_odd. specialize (IH u ltac:(lia)). simpl; lia.
Qed.

Lemma brv_invol w v : v < 2 ^ w -> brv w (brv w v) = v.
Proof.
  revert v; induction w as [|w IH]; intros v Hv.
  - simpl in Hv. simpl; lia.
  - destruct (parity v) as [E|E]; set (u := v / 2) in *; clearbody u; subst v; simpl in Hv.
    + rewrite brv_even. rewrite brv_low by apply brv_lt. rewrite IH by lia. reflexivity.
    + rewrite brv_odd. rewrite brv_high by apply brv_lt. rewrite IH by lia. lia.
Qed.

Section Heap.
Variable R : Type.
Variables (rO rI : R) (radd rmul rsub : R -> R -> R) (ropp : R -> R).
Variable Rth : ring_theory rO rI radd rmul rsub ropp eq.
Add Ring RR3 : Rth.
Infix "*!" := rmul (at level 40, left associativity).
Notation rpow := (rpow R rI rmul).

Variable zeta : R.
Variable w : nat.
Hypothesis Hzeta : rpow zeta (2 ^ w) = ropp rI.

Definition zh (k : nat) : R := rpow zeta (brv w k).
Definition rhoh (k : nat) : R :=
  if k =? 1 then ropp rI else if Nat.even k then zh (k / 2) else ropp (zh (k / 2)).

Lemma even_2 v : Nat.even (2 * v) = true.
Proof. rewrite Nat.even_mul. reflexivity. Qed.
Lemma even_2_1 v : Nat.even (2 * v + 1) = false.
Proof. rewrite Nat.add_comm, Nat.even_add, even_2. reflexivity. Qed.

Lemma rhoh_even k : 1 <= k -> rhoh (2 * k) = zh k.
Proof.
  intros H. unfold rhoh. destruct (Nat.eqb_spec (2 * k) 1); [lia|]. rewrite even_2, div2_even. reflexivity.
Qed.
Lemma rhoh_odd k : 1 <= k -> rhoh (2 * k + 1) = ropp (zh k).
Proof.
  intros H. unfold rhoh. destruct (Nat.eqb_spec (2 * k + 1) 1); [lia|]. rewrite even_2_1, div2_odd. reflexivity.
Qed.

Lemma zh_sq k : 1 <= k < 2 ^ w -> zh k *! zh k = rhoh k.
Proof.
  intros Hk. unfold zh. rewrite <- (rpow_add _ _ _ _ _ _ _ Rth).
  destruct w as [|v] eqn:Ew; [simpl in Hk; lia|].
  destruct (parity k) as [E|E]; set (u := k / 2) in *; clearbody u; subst k.
  - rewrite rhoh_even by lia. unfold zh. rewrite Ew. f_equal. rewrite brv_even.
    rewrite brv_low by (simpl in Hk; lia). lia.
  - destruct (Nat.eq_dec u 0) as [->|Hu].
    + change (2 * 0 + 1) with 1. unfold rhoh; simpl (1 =? 1). cbv iota.
      replace (brv (S v) 1 + brv (S v) 1) with (2 ^ S v); [exact Hzeta|].
      replace 1 with (2 * 0 + 1) by lia. rewrite brv_odd.
      assert (E0 : brv v 0 = 0) by (clear; induction v; simpl; auto). rewrite E0. simpl; lia.
    + rewrite rhoh_odd by lia. unfold zh. rewrite Ew. rewrite brv_odd.
      replace (2 ^ v + brv v u + (2 ^ v + brv v u)) with (2 ^ S v + brv (S v) u).
      * rewrite (rpow_add _ _ _ _ _ _ _ Rth), Hzeta. ring.
      * rewrite brv_low by (simpl in Hk; lia). simpl; lia.
Qed.

Lemma heap_ok_h lg : lg <= w -> heap_ok R rI rmul ropp zh rhoh lg.
Proof.
  intros Hl. split; [reflexivity|]. intros k Hk.
  assert (2 ^ lg <= 2 ^ w) by (apply Nat.pow_le_mono_r; lia).
  split; [apply zh_sq; lia|]. split; [apply rhoh_even; lia|apply rhoh_odd; lia].
Qed.

Lemma rho_final lg p : 1 <= lg <= w -> p < 2 ^ lg ->
  rhoh (2 ^ lg + p) = rpow zeta ((2 * brv lg p + 1) * 2 ^ (w - lg)).
Proof.
  intros Hl Hp. destruct lg as [|v]; [lia|]. assert (P := pow2_pos v).
  assert (G : forall u, u < 2 ^ v -> brv w (2 ^ v + u) = 2 ^ (w - S v) * (1 + 2 * brv v u)).
  { intros u Hu. rewrite (brv_lift w (S v)) by (simpl; lia). rewrite brv_high by exact Hu. reflexivity. }
  destruct (parity p) as [E|E]; set (u := p / 2) in *; clearbody u; subst p; simpl in Hp.
  - replace (2 ^ S v + 2 * u) with (2 * (2 ^ v + u)) by (simpl; lia).
    rewrite rhoh_even by lia. unfold zh. rewrite G by lia. rewrite brv_even. f_equal. lia.
  - replace (2 ^ S v + (2 * u + 1)) with (2 * (2 ^ v + u) + 1) by (simpl; lia).
    rewrite rhoh_odd by lia. unfold zh. rewrite G by lia. rewrite brv_odd.
    replace ((2 * (2 ^ v + brv v u) + 1) * 2 ^ (w - S v)) with (2 ^ w + 2 ^ (w - S v) * (1 + 2 * brv v u)).
    + rewrite (rpow_add _ _ _ _ _ _ _ Rth), Hzeta. ring.
    + replace (2 ^ w) with (2 ^ S v * 2 ^ (w - S v)).
      * simpl; lia.
      * rewrite <- Nat.pow_add_r. f_equal; lia.
Qed.

Lemma winv_ok_h lg : lg <= w -> winv_ok R rI rmul zh (fun k => ropp (zh k)) lg.
Proof.
  intros Hl m b Hm Hb. assert (P := pow2_pos m). unfold zh.
  transitivity (ropp (rpow zeta (brv w (2 ^ m + b)) *! rpow zeta (brv w (2 * 2 ^ m - 1 - b)))); [ring|].
  rewrite <- (rpow_add _ _ _ _ _ _ _ Rth).
  replace (2 * 2 ^ m - 1 - b) with (2 ^ m + (2 ^ m - 1 - b)) by lia.
  rewrite !(brv_lift w (S m)) by (simpl; lia).
  rewrite !brv_high by lia.
  replace (2 ^ (w - S m) * (1 + 2 * brv m b) + 2 ^ (w - S m) * (1 + 2 * brv m (2 ^ m - 1 - b))) with (2 ^ w).
  - rewrite Hzeta. ring.
  - assert (C := brv_compl m b Hb).
    replace (2 ^ w) with (2 ^ S m * 2 ^ (w - S m)) by (rewrite <- Nat.pow_add_r; f_equal; lia).
    simpl. nia.
Qed.
End Heap.
