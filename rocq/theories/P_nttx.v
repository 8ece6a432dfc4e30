(** P_nttx.v -- statements of C05-C09 in specification vocabulary, derived from P_ntt. *)
From Verif Require Import Base Ring Spec M_ff P_ff M_xform P_xform P_xring Zq P_brv M_ntt P_ntt.
Open Scope Z_scope.

Lemma Forall_rep {A} (P : A -> Prop) x n : P x -> Forall P (repeat x n).
Proof. intros H. apply Forall_forall. intros y Hy. apply repeat_spec in Hy. subst; exact H. Qed.

Lemma ntt_spec lg a : falcon_lg lg -> length a = (2 ^ lg)%nat -> Forall lt14 a ->
  exists y, ntt lg a = Ok y /\ length y = (2 ^ lg)%nat /\ Forall lt14 y /\
    (forall p, (p < 2 ^ lg)%nat -> (nth p y 0) mod q = evalq (2 ^ lg) a (point lg p)) /\
    (Forall canon a -> forall p, (p < 2 ^ lg)%nat -> nth p y 0 = evalq (2 ^ lg) a (point lg p)).
Proof.
  intros Hlg La Ha. destruct (ntt_ok lg a Hlg La Ha) as (y & E & L & V & C & P).
  assert (K : forall p, (p < 2 ^ lg)%nat -> (nth p y 0) mod q = evalq (2 ^ lg) a (point lg p)).
  { intros p Hp. specialize (P p Hp). rewrite <- toq_eval in P. apply toq_eq in P. rewrite P.
    unfold evalq. apply Z.mod_mod. discriminate. }
  exists y. repeat split; auto. intros Hc p Hp. rewrite <- K by exact Hp. symmetry. apply Z.mod_small.
  apply (canon_forall_nth y _ L (C Hc)). exact Hp.
Qed.

Lemma ntt_product lg a b c : falcon_lg lg ->
  length a = (2 ^ lg)%nat -> length b = (2 ^ lg)%nat -> length c = (2 ^ lg)%nat -> Forall lt14 a -> Forall lt14 b ->
  (ya <- ntt lg a ;; yb <- ntt lg b ;; yc <- poly_mul lg ya yb c ;; intt lg yc)
  = Ok (modq (negacyclic (2 ^ lg) a b)).
Proof.
  intros Hlg La Lb Lc Ha Hb. destruct (ntt_mul lg a b c Hlg La Lb Lc Ha Hb) as (ya & yb & yc & E1 & E2 & E3 & E4 & _).
  rewrite E1; cbn [bind]. rewrite E2; cbn [bind]. rewrite E3; cbn [bind]. exact E4.
Qed.

Lemma is_poly_invertible_spec lg f : falcon_lg lg -> length f = (2 ^ lg)%nat -> Forall smallq f ->
  exists b, is_poly_invertible lg f = Ok b /\
   (b = true <-> exists g, length g = (2 ^ lg)%nat /\ modq (negacyclic (2 ^ lg) f g) = onep (2 ^ lg)).
Proof.
  intros Hlg Lf Hf. destruct (is_poly_invertible_ok lg f Hlg Lf Hf) as (b & E & H).
  exists b. split; [exact E|]. rewrite H. apply invertible_iff; assumption.
Qed.

Lemma public_key_spec lg f g h0 : falcon_lg lg ->
  length f = (2 ^ lg)%nat -> length g = (2 ^ lg)%nat -> length h0 = (2 ^ lg)%nat ->
  Forall smallq f -> Forall smallq g -> is_poly_invertible lg f = Ok true ->
  exists h, compute_public_key lg f g h0 = Ok h /\ length h = (2 ^ lg)%nat /\ Forall canon h /\
    modq (negacyclic (2 ^ lg) h f) = modq g /\
    (forall h', length h' = (2 ^ lg)%nat -> Forall canon h' -> modq (negacyclic (2 ^ lg) h' f) = modq g -> h' = h).
Proof.
  intros Hlg Lf Lg Lh Hf Hg Hi. apply compute_public_key_ok; auto.
  destruct (is_poly_invertible_ok lg f Hlg Lf Hf) as (b & E & H). rewrite Hi in E. injection E as <-.
  apply H; reflexivity.
Qed.

(** Points: 2N-th roots of unity, pairwise distinct. *)
Lemma qpow_opp1_inj n z i j : qpow z n = qopp q1 -> (i < 2 * n)%nat -> (j < i)%nat -> qpow z i = qpow z j ->
  exists d, (0 < d < 2 * n)%nat /\ qpow z d = q1 /\ d = (i - j)%nat.
Proof.
  intros Hz Hi Hj E. exists (i - j)%nat. repeat split; try lia.
  (* multiply by z^(2n-j) *)
  assert (E2 : qmul (qpow z i) (qpow z (2 * n - j)) = qmul (qpow z j) (qpow z (2 * n - j))) by (rewrite E; reflexivity).
  rewrite <- !(rpow_add _ _ _ _ _ _ _ zq_ring) in E2.
  assert (H2n : qpow z (2 * n) = q1).
  { replace (2 * n)%nat with (n + n)%nat by lia. rewrite (rpow_add _ _ _ _ _ _ _ zq_ring), Hz. ring. }
  replace (j + (2 * n - j))%nat with (2 * n)%nat in E2 by lia.
  replace (i + (2 * n - j))%nat with (2 * n + (i - j))%nat in E2 by lia.
  rewrite (rpow_add _ _ _ _ _ _ _ zq_ring), H2n in E2. transitivity (qmul q1 (qpow z (i - j))); [ring|exact E2].
Qed.

(** If z^(2^lg) = -1 and z^d = 1 then 2^(lg+1) divides d. *)
Lemma order_pow2 lg : forall z d, qpow z (2 ^ lg) = qopp q1 -> qpow z d = q1 -> exists k, d = (k * 2 ^ S lg)%nat.
Proof.
  assert (Hodd : forall z, z = qopp q1 -> forall d, qpow z d = q1 -> exists k, d = (k * 2)%nat).
  { intros z -> d. destruct (Nat.Even_or_Odd d) as [[k ->]|[k ->]]; [exists k; lia|].
    rewrite (rpow_add _ _ _ _ _ _ _ zq_ring), <- (rpow_rpow _ _ _ _ _ _ _ zq_ring).
    replace (qpow (qopp q1) 2) with q1 by (simpl; ring). rewrite (rpow_1 _ _ _ _ _ _ _ zq_ring).
    intros E. exfalso. revert E. simpl. intros E. apply (f_equal ofq) in E. vm_compute in E. discriminate. }
  induction lg as [|lg IH]; intros z d Hz Hd.
  - apply (Hodd z); [|exact Hd]. rewrite <- Hz. simpl. ring.
  - (* z^2 has z^2^(2^lg) = -1; d even because (z^(2^(S lg)))^d = 1 = (-1)^d *)
    assert (Hev : exists k, d = (k * 2)%nat).
    { apply (Hodd _ Hz). rewrite (rpow_rpow _ _ _ _ _ _ _ zq_ring), Nat.mul_comm, <- (rpow_rpow _ _ _ _ _ _ _ zq_ring), Hd.
      apply (rpow_1 _ _ _ _ _ _ _ zq_ring). }
    destruct Hev as (k & ->).
    destruct (IH (qpow z 2) k) as (k' & ->).
    + rewrite (rpow_rpow _ _ _ _ _ _ _ zq_ring). exact Hz.
    + rewrite (rpow_rpow _ _ _ _ _ _ _ zq_ring). rewrite Nat.mul_comm. exact Hd.
    + exists k'. rewrite (Nat.pow_succ_r' 2 (S lg)). lia.
Qed.

Lemma points_spec lg : falcon_lg lg ->
  (forall p, (p < 2 ^ lg)%nat -> (point lg p ^ Z.of_nat (2 ^ lg)) mod q = (- 1) mod q) /\
  (forall p p', (p < 2 ^ lg)%nat -> (p' < 2 ^ lg)%nat -> (point lg p) mod q = (point lg p') mod q -> p = p').
Proof.
  intros Hlg. split.
  - intros p Hp. apply toq_eq. rewrite toq_pow, point_root by exact Hlg. apply zq_ext. reflexivity.
  - assert (W : forall p p', (p < 2 ^ lg)%nat -> (p' < 2 ^ lg)%nat -> (brv lg p' < brv lg p)%nat ->
      (point lg p) mod q = (point lg p') mod q -> False).
    { intros p p' Hp Hp' Hlt E. apply toq_eq in E. unfold point in E. rewrite !toq_pow in E.
      assert (B := brv_lt lg p).
      destruct (qpow_opp1_inj (2 ^ lg) _ (2 * brv lg p + 1) (2 * brv lg p' + 1) (root_pow lg Hlg) ltac:(lia) ltac:(lia) E) as (d & Hd & Ed & Dd).
      destruct (order_pow2 lg _ _ (root_pow lg Hlg) Ed) as (k & ->).
      rewrite Nat.pow_succ_r' in *. destruct k; lia. }
    intros p p' Hp Hp' E.
    assert (Eb : brv lg p = brv lg p').
    { destruct (Nat.lt_trichotomy (brv lg p) (brv lg p')) as [H | [H | H]]; [|exact H|]; exfalso.
      - apply (W p' p); auto.
      - apply (W p p'); auto. }
    rewrite <- (brv_invol lg p Hp), <- (brv_invol lg p' Hp'), Eb. reflexivity.
Qed.

Lemma invertible_examples : is_poly_invertible 9 (2 :: repeat 0 511) = Ok true /\ is_poly_invertible 9 (repeat 0 512) = Ok false.
Proof.
  assert (Hlg : falcon_lg 9) by (left; reflexivity).
  split.
  - destruct (is_poly_invertible_ok 9 (2 :: repeat 0 511) Hlg) as (b & E & H).
    + vm_compute; reflexivity.
    + constructor; [unfold smallq, q; lia|]. apply Forall_rep. unfold smallq, q; lia.
    + rewrite E. f_equal. apply H. intros p Hp E0.
      assert (E1 : ev 9 (2 :: repeat 0 511) p = qmul (toq 2) q1).
      { rewrite <- (ev_onep 9 p Hlg). unfold ev. rewrite <- (reval_scal _ _ _ _ _ _ _ zq_ring).
        apply reval_ext. intros i Hi. unfold onep. rewrite nth_tab by exact Hi.
        destruct i as [|i]; [apply zq_ext; reflexivity|]. cbn [nth Nat.eqb].
        rewrite nth_repeat. apply zq_ext; reflexivity. }
      rewrite E1 in E0. apply (f_equal ofq) in E0. clear - E0. change (2 = 0) in E0. lia.
  - destruct (is_poly_invertible_ok 9 (repeat 0 512) Hlg) as (b & E & H).
    + vm_compute; reflexivity.
    + apply Forall_rep. unfold smallq, q; lia.
    + rewrite E. f_equal. destruct b; [|reflexivity]. exfalso. apply (proj1 H eq_refl 0%nat).
      * change 0%nat with (0 * 1)%nat. assert (P := pow2_pos 9). lia.
      * assert (E1 : ev 9 (repeat 0 512) 0 = qmul q0 (ev 9 (repeat 0 512) 0)).
        { unfold ev. rewrite <- (reval_scal _ _ _ _ _ _ _ zq_ring). apply reval_ext. intros i Hi.
          rewrite nth_repeat. apply zq_ext; reflexivity. }
        rewrite E1. ring.
Qed.
