(** P_rand.v -- the law of ff_t::random. *)
From Verif Require Import Base Spec SpecG M_ff P_ff P_prob P_hash.
From Coq Require Import Reals Lra.
Open Scope R_scope.

Lemma avg2_field : avg 2 (fun u => P_prob.ind (256 * nth 0 u 0 + nth 1 u 0 <? 12289)%Z) = 12289 / 65536.
Proof.
  rewrite avg2. cbn [nth].
  rewrite (rsum_ext 256 _ (fun a => rsum 256 (fun b => / 256 * P_prob.ind (256 * Z.of_nat a + Z.of_nat b <? 12289)%Z))).
  2:{ intros a _. rewrite rsum_scal. field. }
  rewrite rsum_swap.
  transitivity (avg 2 (fun u => P_prob.ind (le_value 256 u <? 12289)%Z)).
  - rewrite avg2. f_equal. apply rsum_ext. intros b _. rewrite rsum_scal. unfold Rdiv. rewrite Rmult_comm. f_equal. apply rsum_ext. intros a _. f_equal.
    f_equal. unfold le_value. cbn [fold_right]. lia.
  - rewrite avg_le by (cbn; lia). cbn [pow]. field.
Qed.
Lemma random_loop_shift k d d' : forall i j, (forall p, d (i + p)%nat = d' (j + p)%nat) -> ff_random_loop k d i = ff_random_loop k d' j.
Proof.
  induction k as [|k IH]; intros i j H; [reflexivity|]. cbn [ff_random_loop]. cbv zeta.
  assert (E := H 0%nat). rewrite !Nat.add_0_r in E. rewrite E. destruct (d' j <? Q)%Z; [reflexivity|].
  apply IH. intros p. specialize (H (S p)). rewrite !Nat.add_succ_r in H. exact H.
Qed.
Definition pr (k : nat) (v : Z) : R := avg (2 * k) (fun s => P_prob.ind (ff_random_loop k (word16 (stream s)) 0 =? v)%Z).
Lemma pr_S k v : canon v -> pr (S k) v = / 65536 + 53247 / 65536 * pr k v.
Proof.
  intros Hv. unfold canon, q in Hv. unfold pr at 1. rewrite avg_words.
  rewrite (avg_ext 2 _ (fun u => P_prob.ind (256 * nth 0 u 0 + nth 1 u 0 =? v)%Z + (pr k v + - pr k v * P_prob.ind (256 * nth 0 u 0 + nth 1 u 0 <? 12289)%Z))).
  - rewrite !avg_plus, avg_const, avg_scal, avg2_field, avg2_word by lia. field.
  - intros u Lu _. rewrite (two u Lu). cbn [nth app]. set (a := nth 0 u 0%Z). set (b := nth 1 u 0%Z).
    assert (W : forall s p, word16 (stream (a :: b :: s)) (1 + p)%nat = word16 (stream s) (0 + p)%nat).
    { intros s p. unfold word16, stream. replace (2 * (1 + p))%nat with (S (S (2 * p)))%nat by lia. reflexivity. }
    rewrite (avg_ext _ _ (fun s => P_prob.ind ((if 256 * a + b <? 12289 then 256 * a + b else ff_random_loop k (word16 (stream s)) 0) =? v)%Z)).
    + destruct (256 * a + b <? 12289)%Z eqn:E; cbn [P_prob.ind].
      * rewrite avg_const. ring.
      * replace (256 * a + b =? v)%Z with false by (symmetry; apply Z.eqb_neq; apply Z.ltb_ge in E; lia). cbn [P_prob.ind]. unfold pr. ring.
    + intros s _ _. cbn [ff_random_loop]. cbv zeta. change (word16 (stream (a :: b :: s)) 0) with (256 * a + b)%Z. change Q with 12289%Z.
      rewrite (random_loop_shift k _ (word16 (stream s)) 1 0 (W s)). reflexivity.
Qed.
Lemma pr_val k v : canon v -> pr k v = (1 - (53247 / 65536) ^ k) / 12289 + P_prob.ind (v =? 0)%Z * (53247 / 65536) ^ k.
Proof.
  intros Hv. induction k as [|k IH].
  - unfold pr. cbn [Nat.mul avg ff_random_loop pow]. destruct v; cbn; field.
  - rewrite pr_S, IH by exact Hv. cbn [pow]. field.
Qed.
Lemma random_law v : canon v -> prob (2 * 2 ^ 10) (fun s => (ff_random (word16 (stream s)) =? v)%Z) =
  (1 - (53247 / 65536) ^ (2 ^ 10)) / 12289 + (if (v =? 0)%Z then (53247 / 65536) ^ (2 ^ 10) else 0).
Proof.
  intros Hv. rewrite prob_avg. unfold ff_random. fold (pr (2 ^ 10) v). rewrite pr_val by exact Hv.
  destruct (v =? 0)%Z; cbn [P_prob.ind]; ring.
Qed.
Lemma rest_small : (53247 / 65536) ^ (2 ^ 10) < / 2 ^ 256.
Proof.
  assert (A : (53247 / 65536) ^ 4 < / 2) by (cbn [pow]; lra).
  change (2 ^ 10)%nat with (4 * 256)%nat. rewrite pow_mult, <- pow_inv.
  assert (P0 : 0 <= (53247 / 65536) ^ 4) by (apply pow_le; lra).
  revert A P0. generalize ((53247 / 65536) ^ 4). intros x A P0.
  change 256%nat with (S 255). generalize 255%nat. intros n. induction n as [|n IH]; [cbn [pow]; lra|].
  change (x ^ S (S n)) with (x * x ^ S n). change ((/ 2) ^ S (S n)) with (/ 2 * (/ 2) ^ S n).
  assert (0 <= x ^ S n) by (apply pow_le; exact P0). nra.
Qed.
