(** P_ntt.v -- the NTT of M_ntt is evaluation at the odd powers of zeta; consequences. *)
From Verif Require Import Base Spec Ring Zq M_ff P_ff M_xform P_xform P_xring P_brv M_ntt.
From Coq Require Import Ring_theory Ring.
Open Scope Z_scope.

Add Ring ZQ : zq_ring.
Notation qsum := (rsum zq q0 qadd).
Notation qpow := (rpow zq q1 qmul).
Notation qeval := (reval zq q0 q1 qadd qmul).
Notation qconv := (nconv zq q0 qadd qmul qopp).

(** ** Transfer Z -> Z_q *)
Lemma toq_pow x n : toq (x ^ Z.of_nat n) = qpow (toq x) n.
Proof.
  induction n as [|n IH]; [reflexivity|].
  rewrite Nat2Z.inj_succ, Z.pow_succ_r by lia. rewrite toq_mul, IH. reflexivity.
Qed.

Lemma toq_zsum n f : toq (zsum n f) = qsum n (fun i => toq (f i)).
Proof. induction n as [|n IH]; simpl; [reflexivity|]. rewrite toq_add, IH. reflexivity. Qed.

Lemma toq_eval n a x : toq (evalq n a x) = qeval n (fun i => toq (nth i a 0)) (toq x).
Proof.
  unfold evalq, Ring.reval.
  transitivity (toq (zsum n (fun j => nth j a 0 * x ^ Z.of_nat j))).
  { apply toq_eq. apply Z.mod_mod, qnz. }
  rewrite toq_zsum. apply rsum_ext. intros i Hi. rewrite toq_mul, toq_pow. reflexivity.
Qed.

Lemma toq_negacyclic n a b k : (k < n)%nat ->
  toq (nth k (negacyclic n a b) 0) = qconv n (fun i => toq (nth i a 0)) (fun i => toq (nth i b 0)) k.
Proof.
  intros Hk. unfold negacyclic. rewrite nth_tab by exact Hk. rewrite toq_zsum.
  unfold Ring.nconv. apply rsum_ext. intros i Hi. rewrite toq_mul. f_equal. unfold sh.
  destruct (Nat.leb i k); [reflexivity|]. apply toq_opp.
Qed.

Lemma toq_mod x : toq (x mod q) = toq x.
Proof. apply toq_eq, Z.mod_mod, qnz. Qed.

Lemma canon_toq x y : canon x -> canon y -> toq x = toq y -> x = y.
Proof.
  intros Hx Hy H. apply toq_eq in H. rewrite !Z.mod_small in H by assumption. exact H.
Qed.

Lemma modq_nth a i : nth i (modq a) 0 = (nth i a 0) mod q.
Proof. unfold modq. rewrite <- (map_nth (fun x => x mod q)). reflexivity. Qed.
Lemma modq_length a : length (modq a) = length a.
Proof. apply map_length. Qed.
Lemma negacyclic_length n a b : length (negacyclic n a b) = n.
Proof. apply tab_length. Qed.

Lemma modq_canon a : Forall canon (modq a).
Proof. unfold modq. apply Forall_forall. intros x Hx. apply in_map_iff in Hx. destruct Hx as [y [<- _]]. apply mod_canon. Qed.

(** ** bit_rev *)
Lemma brv_snoc i v : brv (S i) v = (2 * brv i v + (v / 2 ^ i) mod 2)%nat.
Proof.
  revert v; induction i as [|i IH]; intros v.
  - cbn [brv]. rewrite Nat.pow_0_r, Nat.div_1_r. lia.
  - change (brv (S (S i)) v) with ((v mod 2) * 2 ^ S i + brv (S i) (v / 2))%nat.
    rewrite IH. rewrite Nat.div_div by (try lia; apply Nat.pow_nonzero; lia).
    cbn [brv]. rewrite Nat.pow_succ_r'. lia.
Qed.

Lemma lxor_bit a b k : (b < 2)%nat ->
  Nat.lxor (2 * a * 2 ^ k) (Nat.shiftl b k) = ((2 * a + b) * 2 ^ k)%nat.
Proof.
  intros Hb. rewrite <- !Nat.shiftl_mul_pow2, <- Nat.shiftl_lxor. f_equal.
  assert (b = 0 \/ b = 1)%nat as [-> | ->] by lia.
  - rewrite Nat.lxor_0_r. lia.
  - apply Nat.bits_inj. intros n. rewrite Nat.lxor_spec. destruct n as [|n].
    + rewrite Nat.testbit_even_0, Nat.testbit_odd_0. reflexivity.
    + rewrite Nat.testbit_even_succ, Nat.testbit_odd_succ by lia.
      replace 1%nat with (2 * 0 + 1)%nat at 1 by lia. rewrite Nat.testbit_odd_succ by lia.
      rewrite Nat.bits_0. apply xorb_false_r.
Qed.

Lemma bit_rev_brv w v : bit_rev w v = brv w v.
Proof.
  unfold bit_rev.
  assert (G : forall k, (k <= w)%nat ->
    fold_left (fun v_rev i => Nat.lxor v_rev (Nat.shiftl (Nat.land (Nat.shiftr v i) 1) (w - 1 - i))) (seq 0 k) 0%nat
    = (brv k v * 2 ^ (w - k))%nat).
  { induction k as [|k IH]; intros Hk; [reflexivity|].
    rewrite seq_S, fold_left_app, IH by lia. cbn [fold_left Nat.add].
    replace (w - k)%nat with (S (w - S k)) by lia. replace (w - 1 - k)%nat with (w - S k)%nat by lia.
    rewrite brv_snoc.
    assert (E1 : Nat.land (Nat.shiftr v k) 1 = ((v / 2 ^ k) mod 2)%nat).
    { change 1%nat with (Nat.ones 1). rewrite Nat.land_ones. rewrite Nat.shiftr_div_pow2. reflexivity. }
    rewrite E1. rewrite <- lxor_bit by (apply Nat.mod_upper_bound; lia).
    f_equal. simpl; lia. }
  rewrite G by lia. rewrite Nat.sub_diag. simpl; lia.
Qed.

(** ** Parameter sets *)

Lemma zeta_root lg : zeta lg = root lg.
Proof. unfold zeta, root. destruct (Nat.eqb lg 9); reflexivity. Qed.
Lemma root_canon lg : canon (root lg).
Proof. unfold root, canon, q. destruct (Nat.eqb lg 9); lia. Qed.

Lemma root_pow lg : falcon_lg lg -> qpow (toq (root lg)) (2 ^ lg) = qopp q1.
Proof.
  intros Hlg. rewrite <- toq_pow. rewrite Nat2Z.inj_pow.
  transitivity (toq (ff_pow (root lg) (2 ^ Z.of_nat lg))).
  - symmetry. rewrite ff_pow_correct; [apply toq_mod|apply root_canon|apply Z.pow_nonneg; lia].
  - destruct Hlg as [-> | ->].
    + change (ff_pow (root 9) (2 ^ Z.of_nat 9)) with 12288. apply zq_ext. reflexivity.
    + change (ff_pow (root 10) (2 ^ Z.of_nat 10)) with 12288. apply zq_ext. reflexivity.
Qed.

Lemma inv_n_ok lg : falcon_lg lg -> canon (inv_n lg) /\ toq (inv_n lg * 2 ^ Z.of_nat lg) = q1.
Proof.
  intros [-> | ->].
  - change (inv_n 9) with 12265. split; [unfold canon, q; lia|apply zq_ext; reflexivity].
  - change (inv_n 10) with 12277. split; [unfold canon, q; lia|apply zq_ext; reflexivity].
Qed.

Notation zhq lg := (zh zq q1 qmul (toq (root lg)) lg).
Notation rhoq lg := (rhoh zq q1 qmul qopp (toq (root lg)) lg).

Lemma ztab_length lg : length (powers_of_zeta lg) = (2 ^ lg)%nat.
Proof. apply tab_length. Qed.

Lemma ztab_nth lg k : (k < 2 ^ lg)%nat ->
  canon (nth k (powers_of_zeta lg) 0) /\ toq (nth k (powers_of_zeta lg) 0) = zhq lg k.
Proof.
  intros Hk. unfold powers_of_zeta. rewrite nth_tab by exact Hk.
  rewrite zeta_root, ff_pow_correct; [|apply root_canon|lia].
  split; [apply mod_canon|]. rewrite toq_mod, bit_rev_brv, toq_pow. reflexivity.
Qed.

Lemma nztab_nth lg k : (k < 2 ^ lg)%nat ->
  canon (nth k (neg_powers_of_zeta lg) 0) /\ toq (nth k (neg_powers_of_zeta lg) 0) = qopp (zhq lg k).
Proof.
  intros Hk. unfold neg_powers_of_zeta.
  rewrite (nth_indep _ 0 (ff_neg 0)) by (rewrite map_length, ztab_length; exact Hk).
  rewrite map_nth. destruct (ztab_nth lg k Hk) as [C E].
  split; [apply ff_neg_canon; exact C|]. rewrite ff_neg_correct by exact C.
  rewrite toq_mod, toq_opp, E. reflexivity.
Qed.

(** operations *)
Lemma ff_mul_canon a b : lt14 a -> lt14 b -> canon (ff_mul a b).
Proof. intros Ha Hb. rewrite ff_mul_correct by assumption. apply mod_canon. Qed.

Lemma ct_ops_lt14 lg : ct_ops_ok zq qadd qmul qsub (zhq lg) Z 0 ff_mul ff_sub ff_addc (powers_of_zeta lg) toq lt14 lg.
Proof.
  intros k x y Hk Hx Hy. destruct (ztab_nth lg k Hk) as [C E].
  set (zk := nth k (powers_of_zeta lg) 0) in *.
  assert (Cm : canon (ff_mul zk y)) by (apply ff_mul_canon; [apply canon_lt14; exact C|exact Hy]).
  assert (Em : toq (ff_mul zk y) = qmul (zhq lg k) (toq y)).
  { rewrite ff_mul_correct by (try exact Hy; apply canon_lt14; exact C). rewrite toq_mod, toq_mul, E. reflexivity. }
  split.
  - destruct (ff_addc_lt14 x (ff_mul zk y) Hx Cm) as [B M]. split; [exact B|].
    transitivity (toq (x + ff_mul zk y)); [apply toq_eq; exact M|]. rewrite toq_add, Em. reflexivity.
  - rewrite ff_sub_lt14 by assumption. split; [apply canon_lt14, mod_canon|].
    rewrite toq_mod, toq_sub, Em. reflexivity.
Qed.

Lemma ct_ops_canon lg : ct_ops_ok zq qadd qmul qsub (zhq lg) Z 0 ff_mul ff_sub ff_addc (powers_of_zeta lg) toq canon lg.
Proof.
  intros k x y Hk Hx Hy.
  destruct (ct_ops_lt14 lg k x y Hk (canon_lt14 _ Hx) (canon_lt14 _ Hy)) as [[_ E1] [_ E2]].
  destruct (ztab_nth lg k Hk) as [C _].
  assert (Cm : canon (ff_mul (nth k (powers_of_zeta lg) 0) y)) by (apply ff_mul_canon; apply canon_lt14; assumption).
  split; (split; [|assumption]).
  - rewrite ff_addc_correct by assumption. apply mod_canon.
  - rewrite ff_sub_correct by assumption. apply mod_canon.
Qed.

Lemma gs_ops_canon lg : gs_ops_ok zq qadd qmul qsub (fun k => qopp (zhq lg k)) Z 0 ff_addc ff_sub ff_mulc (neg_powers_of_zeta lg) toq canon lg.
Proof.
  intros k x y Hk Hx Hy. destruct (nztab_nth lg k Hk) as [C E].
  split.
  - rewrite ff_addc_correct by assumption. split; [apply mod_canon|]. rewrite toq_mod, toq_add. reflexivity.
  - rewrite ff_sub_correct by assumption.
    rewrite ff_mulc_correct by (apply canon_lt14; try assumption; apply mod_canon).
    split; [apply mod_canon|]. rewrite toq_mod, toq_mul, toq_mod, toq_sub, E. reflexivity.
Qed.

(** ** Forward transform *)

Lemma toq_point lg p : falcon_lg lg -> (p < 2 ^ lg)%nat -> rhoq lg (2 ^ lg + p)%nat = toq (point lg p).
Proof.
  intros Hlg Hp. rewrite (rho_final _ _ _ _ _ _ _ zq_ring _ _ (root_pow lg Hlg)) by (destruct Hlg; lia).
  rewrite Nat.sub_diag, Nat.pow_0_r, Nat.mul_1_r. unfold point. rewrite toq_pow. reflexivity.
Qed.

Lemma ntt_ok lg a : falcon_lg lg -> length a = (2 ^ lg)%nat -> Forall lt14 a ->
  exists y, ntt lg a = Ok y /\ length y = (2 ^ lg)%nat /\ Forall lt14 y /\ (Forall canon a -> Forall canon y) /\
  forall p, (p < 2 ^ lg)%nat -> toq (nth p y 0) = qeval (2 ^ lg) (fun i => toq (nth i a 0)) (toq (point lg p)).
Proof.
  intros Hlg La Ha.
  exists (ct_iter Z 0 ff_mul ff_sub ff_addc (powers_of_zeta lg) lg lg a).
  assert (Hn : forall i, (i < 2 ^ lg)%nat -> lt14 (nth i a 0)).
  { intros i Hi. apply Forall_nth_lt; [exact Ha|rewrite La; exact Hi]. }
  split; [apply ct_ok; [exact La|rewrite ztab_length; reflexivity]|].
  split; [rewrite ct_iter_length; exact La|].
  assert (I := ct_iter_phi _ _ _ _ (zhq lg) Z 0 _ _ _ _ toq lt14 lg lg a (ct_ops_lt14 lg) (le_n _) La Hn).
  split; [|split].
  - apply Forall_nth_intro with (d := 0). rewrite ct_iter_length, La. intros i Hi. apply I; exact Hi.
  - intros Hc. assert (Hnc : forall i, (i < 2 ^ lg)%nat -> canon (nth i a 0)).
    { intros i Hi. apply Forall_nth_lt; [exact Hc|rewrite La; exact Hi]. }
    assert (Ic := ct_iter_phi _ _ _ _ (zhq lg) Z 0 _ _ _ _ toq canon lg lg a (ct_ops_canon lg) (le_n _) La Hnc).
    apply Forall_nth_intro with (d := 0). rewrite ct_iter_length, La. intros i Hi. apply Ic; exact Hi.
  - intros p Hp. destruct (I p Hp) as [_ E]. rewrite E.
    rewrite (ct_eval _ _ _ _ _ _ _ zq_ring (zhq lg) (rhoq lg)); [|apply (heap_ok_h _ _ _ _ _ _ _ zq_ring _ _ (root_pow lg Hlg)); lia|exact Hp].
    rewrite toq_point by assumption. reflexivity.
Qed.

(** ** Inverse transform *)
Lemma qpow_two n : qpow (two zq q1 qadd) n = toq (2 ^ Z.of_nat n).
Proof. rewrite toq_pow. reflexivity. Qed.

Lemma inv_n_scale lg x : falcon_lg lg -> qmul (qmul (toq (2 ^ Z.of_nat lg)) x) (toq (inv_n lg)) = x.
Proof.
  intros Hlg. destruct (inv_n_ok lg Hlg) as [_ E]. rewrite toq_mul in E.
  transitivity (qmul x (qmul (toq (inv_n lg)) (toq (2 ^ Z.of_nat lg)))); [ring|]. rewrite E. ring.
Qed.

Lemma canon_forall_nth a n : length a = n -> Forall canon a -> forall i, (i < n)%nat -> canon (nth i a 0).
Proof. intros L H i Hi. apply Forall_nth_lt; [exact H|rewrite L; exact Hi]. Qed.

Lemma intt_form lg y : falcon_lg lg -> length y = (2 ^ lg)%nat -> Forall canon y ->
  exists a, intt lg y = Ok a /\ length a = (2 ^ lg)%nat /\ Forall canon a /\
  forall p, (p < 2 ^ lg)%nat -> toq (nth p a 0) =
    qmul (gs_iterR zq qadd qmul qsub (fun k => qopp (zhq lg k)) lg lg (fun i => toq (nth i y 0)) p) (toq (inv_n lg)).
Proof.
  intros Hlg Ly Hy. unfold intt.
  set (g := gs_iter Z 0 ff_addc ff_sub ff_mulc (neg_powers_of_zeta lg) lg lg y).
  assert (I := gs_iter_phi _ _ _ _ (fun k => qopp (zhq lg k)) Z 0 _ _ _ _ toq canon lg lg y (gs_ops_canon lg) (le_n _) Ly
                (canon_forall_nth y _ Ly Hy)). fold g in I.
  assert (Lg : length g = (2 ^ lg)%nat) by (unfold g; rewrite gs_iter_length; exact Ly).
  exists (map (fun x => ff_mulc x (inv_n lg)) g).
  split.
  { apply gs_ok; [exact Ly|]. unfold neg_powers_of_zeta. rewrite map_length, ztab_length. reflexivity. }
  destruct (inv_n_ok lg Hlg) as [Ci _].
  assert (P : forall p, (p < 2 ^ lg)%nat -> nth p (map (fun x => ff_mulc x (inv_n lg)) g) 0 = (nth p g 0 * inv_n lg) mod q).
  { intros p Hp. rewrite (nth_indep _ 0 (ff_mulc 0 (inv_n lg))) by (rewrite map_length, Lg; exact Hp).
    rewrite (map_nth (fun x => ff_mulc x (inv_n lg))). apply ff_mulc_correct; apply canon_lt14; [apply I; exact Hp|exact Ci]. }
  split; [rewrite map_length; exact Lg|]. split.
  - apply Forall_nth_intro with (d := 0). rewrite map_length, Lg. intros i Hi. rewrite P by exact Hi. apply mod_canon.
  - intros p Hp. rewrite P by exact Hp. rewrite toq_mod, toq_mul. f_equal. apply I; exact Hp.
Qed.

Lemma list_eq_toq a b n : length a = n -> length b = n -> Forall canon a -> Forall canon b ->
  (forall p, (p < n)%nat -> toq (nth p a 0) = toq (nth p b 0)) -> a = b.
Proof.
  intros La Lb Ca Cb H. apply (list_ext 0); [lia|]. intros i Hi. rewrite La in Hi.
  apply canon_toq; [apply (canon_forall_nth a n)|apply (canon_forall_nth b n)|apply H]; auto.
Qed.

(** forward transform in terms of ct_iterR (needed for the inverse) *)
Lemma ntt_form lg a : falcon_lg lg -> length a = (2 ^ lg)%nat -> Forall canon a ->
  exists y, ntt lg a = Ok y /\ length y = (2 ^ lg)%nat /\ Forall canon y /\
  forall p, (p < 2 ^ lg)%nat -> toq (nth p y 0) = ct_iterR zq qadd qmul qsub (zhq lg) lg lg (fun i => toq (nth i a 0)) p.
Proof.
  intros Hlg La Ha.
  exists (ct_iter Z 0 ff_mul ff_sub ff_addc (powers_of_zeta lg) lg lg a).
  assert (I := ct_iter_phi _ _ _ _ (zhq lg) Z 0 _ _ _ _ toq canon lg lg a (ct_ops_canon lg) (le_n _) La (canon_forall_nth a _ La Ha)).
  split; [apply ct_ok; [exact La|rewrite ztab_length; reflexivity]|].
  split; [rewrite ct_iter_length; exact La|]. split.
  - apply Forall_nth_intro with (d := 0). rewrite ct_iter_length, La. intros i Hi. apply I; exact Hi.
  - intros p Hp. apply I; exact Hp.
Qed.

Lemma intt_ntt lg a : falcon_lg lg -> length a = (2 ^ lg)%nat -> Forall canon a ->
  exists y, ntt lg a = Ok y /\ length y = (2 ^ lg)%nat /\ Forall canon y /\ intt lg y = Ok a.
Proof.
  intros Hlg La Ha. destruct (ntt_form lg a Hlg La Ha) as (y & Ey & Ly & Cy & Hy).
  destruct (intt_form lg y Hlg Ly Cy) as (a' & Ea & La' & Ca' & Ha').
  exists y. repeat split; auto. rewrite Ea. f_equal. apply (list_eq_toq a' a (2 ^ lg)%nat); auto.
  intros p Hp. rewrite Ha' by exact Hp.
  rewrite (gs_iterR_ext zq qadd qmul qsub (fun k => qopp (zhq lg k)) lg lg _ (ct_iterR zq qadd qmul qsub (zhq lg) lg lg (fun i => toq (nth i a 0)))) by (auto; lia).
  rewrite (gs_ct_iter _ _ _ _ _ _ _ zq_ring (zhq lg)); auto.
  - rewrite qpow_two. apply inv_n_scale; exact Hlg.
  - apply (winv_ok_h _ _ _ _ _ _ _ zq_ring _ _ (root_pow lg Hlg)); lia.
Qed.

Lemma ntt_intt lg y : falcon_lg lg -> length y = (2 ^ lg)%nat -> Forall canon y ->
  exists a, intt lg y = Ok a /\ length a = (2 ^ lg)%nat /\ Forall canon a /\ ntt lg a = Ok y.
Proof.
  intros Hlg Ly Hy. destruct (intt_form lg y Hlg Ly Hy) as (a & Ea & La & Ca & Ha).
  destruct (ntt_form lg a Hlg La Ca) as (y' & Ey & Ly' & Cy' & Hy').
  exists a. repeat split; auto. rewrite Ey. f_equal. apply (list_eq_toq y' y (2 ^ lg)%nat); auto.
  intros p Hp. rewrite Hy' by exact Hp.
  rewrite (ct_iterR_ext zq qadd qmul qsub (zhq lg) lg lg _
    (fun i => qmul (toq (inv_n lg)) (gs_iterR zq qadd qmul qsub (fun k => qopp (zhq lg k)) lg lg (fun i => toq (nth i y 0)) i))).
  2: lia. 2: exact Hp. 2: { intros i Hi. rewrite Ha by exact Hi. ring. }
  rewrite (ct_iterR_scal _ _ _ _ _ _ _ zq_ring) by (auto; lia).
  rewrite (ct_gs_iter _ _ _ _ _ _ _ zq_ring); auto.
  - rewrite qpow_two. etransitivity; [|apply (inv_n_scale lg); exact Hlg]. ring.
  - apply (winv_ok_h _ _ _ _ _ _ _ zq_ring _ _ (root_pow lg Hlg)); lia.
Qed.

(** ** Products *)
Lemma point_root lg p : falcon_lg lg -> qpow (toq (point lg p)) (2 ^ lg) = qopp q1.
Proof.
  intros Hlg. unfold point. rewrite toq_pow, (rpow_rpow _ _ _ _ _ _ _ zq_ring), Nat.mul_comm.
  rewrite <- (rpow_rpow _ _ _ _ _ _ _ zq_ring), root_pow by exact Hlg.
  generalize (brv lg p); intros n. rewrite (rpow_add _ _ _ _ _ _ _ zq_ring).
  rewrite <- (rpow_rpow _ _ _ _ _ _ _ zq_ring).
  replace (qpow (qopp q1) 2) with q1 by (simpl; ring). rewrite (rpow_1 _ _ _ _ _ _ _ zq_ring). simpl; ring.
Qed.

Lemma poly_mul_ok lg a b c : length a = (2 ^ lg)%nat -> length b = (2 ^ lg)%nat -> length c = (2 ^ lg)%nat ->
  poly_mul lg a b c = Ok (tab (2 ^ lg) (fun i => ff_mul (nth i a 0) (nth i b 0))).
Proof.
  intros La Lb Lc. unfold poly_mul. apply zipw_ok; auto.
Qed.

Lemma ntt_mul lg a b c : falcon_lg lg ->
  length a = (2 ^ lg)%nat -> length b = (2 ^ lg)%nat -> length c = (2 ^ lg)%nat -> Forall lt14 a -> Forall lt14 b ->
  exists ya yb yc, ntt lg a = Ok ya /\ ntt lg b = Ok yb /\ poly_mul lg ya yb c = Ok yc /\
    intt lg yc = Ok (modq (negacyclic (2 ^ lg) a b)) /\ length yc = (2 ^ lg)%nat.
Proof.
  intros Hlg La Lb Lc Ha Hb.
  destruct (ntt_ok lg a Hlg La Ha) as (ya & Ea & Lya & Vya & _ & Pa).
  destruct (ntt_ok lg b Hlg Lb Hb) as (yb & Eb & Lyb & Vyb & _ & Pb).
  exists ya, yb. eexists. split; [exact Ea|]. split; [exact Eb|]. split; [apply poly_mul_ok; auto|].
  split; [|apply tab_length].
  set (p := modq (negacyclic (2 ^ lg) a b)).
  assert (Lp : length p = (2 ^ lg)%nat) by (unfold p; rewrite modq_length, negacyclic_length; reflexivity).
  destruct (intt_ntt lg p Hlg Lp (modq_canon _)) as (y & Ey & Ly & Cy & Eiy).
  rewrite <- Eiy. f_equal. symmetry. apply (list_eq_toq _ _ (2 ^ lg)%nat); auto; [apply tab_length| |].
  - apply Forall_nth_intro with (d := 0). rewrite tab_length. intros i Hi. rewrite nth_tab by exact Hi.
    apply ff_mul_canon; apply Forall_nth_lt; try assumption; lia.
  - intros i Hi. rewrite nth_tab by exact Hi.
    rewrite ff_mul_correct by (apply Forall_nth_lt; try assumption; lia).
    rewrite toq_mod, toq_mul, Pa, Pb by exact Hi.
    assert (Hc : Forall lt14 p).
    { eapply Forall_impl; [|apply modq_canon]. intros x; apply canon_lt14. }
    destruct (ntt_ok lg p Hlg Lp Hc) as (y' & Ey' & _ & _ & _ & Pp).
    rewrite Ey in Ey'. injection Ey' as <-. rewrite Pp by exact Hi.
    rewrite <- (reval_nconv _ _ _ _ _ _ _ zq_ring) by (apply point_root; exact Hlg).
    symmetry. apply reval_ext. intros j Hj. unfold p. rewrite modq_nth, toq_mod. symmetry. apply toq_negacyclic; exact Hj.
Qed.

(** ** Evaluation view: Z_q[x]/(x^N+1) is isomorphic to Z_q^N *)
Definition ev (lg : nat) (a : list Z) (p : nat) : zq := qeval (2 ^ lg) (fun i => toq (nth i a 0)) (toq (point lg p)).

Lemma ev_ext lg a b p : (forall i, (i < 2 ^ lg)%nat -> toq (nth i a 0) = toq (nth i b 0)) -> ev lg a p = ev lg b p.
Proof. intros H. unfold ev. apply reval_ext. exact H. Qed.

Lemma ev_modq lg a p : ev lg (modq a) p = ev lg a p.
Proof. apply ev_ext. intros i Hi. rewrite modq_nth. apply toq_mod. Qed.

Lemma ev_mul lg a b p : falcon_lg lg -> ev lg (negacyclic (2 ^ lg) a b) p = qmul (ev lg a p) (ev lg b p).
Proof.
  intros Hlg. unfold ev. rewrite <- (reval_nconv _ _ _ _ _ _ _ zq_ring) by (apply point_root; exact Hlg).
  apply reval_ext. intros j Hj. apply toq_negacyclic; exact Hj.
Qed.

Lemma modq_lt14 a : Forall lt14 (modq a).
Proof. eapply Forall_impl; [|apply modq_canon]. intros x; apply canon_lt14. Qed.

Lemma ntt_ev lg a : falcon_lg lg -> length a = (2 ^ lg)%nat -> Forall canon a ->
  exists y, ntt lg a = Ok y /\ length y = (2 ^ lg)%nat /\ Forall canon y /\
  forall p, (p < 2 ^ lg)%nat -> toq (nth p y 0) = ev lg a p.
Proof.
  intros Hlg La Ca.
  assert (Ha : Forall lt14 a) by (eapply Forall_impl; [|exact Ca]; intros x; apply canon_lt14).
  destruct (ntt_ok lg a Hlg La Ha) as (y & E & L & _ & C & P). exists y. auto.
Qed.

Lemma ev_inj lg a b : falcon_lg lg -> length a = (2 ^ lg)%nat -> length b = (2 ^ lg)%nat ->
  (forall p, (p < 2 ^ lg)%nat -> ev lg a p = ev lg b p) -> modq a = modq b.
Proof.
  intros Hlg La Lb H.
  rewrite <- (modq_length a) in La. rewrite <- (modq_length b) in Lb.
  destruct (intt_ntt lg _ Hlg La (modq_canon a)) as (y & Ey & _ & _ & Iy).
  destruct (intt_ntt lg _ Hlg Lb (modq_canon b)) as (y' & Ey' & _ & _ & Iy').
  destruct (ntt_ev lg _ Hlg La (modq_canon a)) as (u & Eu & Lu & Cu & Pu).
  destruct (ntt_ev lg _ Hlg Lb (modq_canon b)) as (u' & Eu' & Lu' & Cu' & Pu').
  rewrite Ey in Eu; injection Eu as <-. rewrite Ey' in Eu'; injection Eu' as <-.
  assert (y = y') as <-.
  { apply (list_eq_toq _ _ (2 ^ lg)%nat); auto. intros p Hp. rewrite Pu, Pu', !ev_modq by exact Hp. apply H; exact Hp. }
  rewrite Iy in Iy'. injection Iy' as E. exact E.
Qed.

Lemma ev_surj lg y : falcon_lg lg -> length y = (2 ^ lg)%nat -> Forall canon y ->
  exists a, intt lg y = Ok a /\ length a = (2 ^ lg)%nat /\ Forall canon a /\
  forall p, (p < 2 ^ lg)%nat -> ev lg a p = toq (nth p y 0).
Proof.
  intros Hlg Ly Cy. destruct (ntt_intt lg y Hlg Ly Cy) as (a & Ea & La & Ca & En).
  destruct (ntt_ev lg a Hlg La Ca) as (y' & Ey' & _ & _ & P). rewrite En in Ey'; injection Ey' as <-.
  exists a. repeat split; auto. intros p Hp. symmetry; apply P; exact Hp.
Qed.

(** unit polynomial *)

Lemma ev_onep lg p : falcon_lg lg -> ev lg (onep (2 ^ lg)) p = q1.
Proof.
  intros Hlg. rewrite <- (reval_one _ _ _ _ _ _ _ zq_ring (2 ^ lg) (toq (point lg p))).
  - unfold ev. apply reval_ext. intros i Hi. unfold onep. rewrite nth_tab by exact Hi.
    unfold one_p. destruct (Nat.eqb i 0); reflexivity.
  - assert (P := pow2_pos lg). lia.
Qed.

(** ** conversion loop *)

Lemma to_ff_ok x : smallq x -> to_ff x = x mod q.
Proof.
  unfold smallq, to_ff, u16, b2z, q, Q. intros H. destruct (Z.ltb_spec x 0).
  - rewrite (Z.mod_small _ 65536) by lia. replace (1 * 12289 + x) with (x + 1 * 12289) by lia.
    rewrite <- (Z.mod_add x 1 12289) by lia. rewrite Z.mod_small; lia.
  - rewrite Z.mod_small by lia. rewrite Z.mod_small by lia. lia.
Qed.

Lemma fill_ok {A B} (f : A -> B) n (a : list A) (t : list B) : n = length a -> n = length t ->
  forn n 0 (fun i v => x <- rd a i ;; wr v i (f x)) t = Ok (map f a).
Proof.
  intros Ha Ht. destruct a as [|da a0]; [destruct t; simpl in *; [subst; reflexivity|lia]|].
  set (a := da :: a0) in *. destruct t as [|dt t0]; [simpl in *; lia|]. set (t := dt :: t0) in *.
  destruct (forn_inv (fun i s => length s = n /\ forall p, (p < i)%nat -> nth p s dt = f (nth p a da))
    n 0 (fun i v => x <- rd a i ;; wr v i (f x)) t) as (s & E & L & H).
  - split; [auto|]. intros; lia.
  - intros j s Hj [L H]. rewrite (rd_Ok a j da) by lia. cbn [bind]. rewrite wr_Ok by lia.
    eexists; split; [reflexivity|]. split; [rewrite upd_length; exact L|].
    intros p Hp. rewrite nth_upd by lia. destruct (Nat.eqb_spec p j) as [->|]; [reflexivity|apply H; lia].
  - rewrite E. f_equal. apply (list_ext dt); [rewrite map_length; lia|]. intros i Hi.
    rewrite (nth_indep (map f a) dt (f da)) by (rewrite map_length; lia). rewrite map_nth. apply H; lia.
Qed.

Lemma map_to_ff f : Forall smallq f -> map to_ff f = modq f.
Proof. intros H. unfold modq. apply map_ext_in. intros x Hx. apply to_ff_ok. rewrite Forall_forall in H. apply H, Hx. Qed.

Lemma to_ff_poly_ok n f t : length f = n -> length t = n -> Forall smallq f -> to_ff_poly n f t = Ok (modq f).
Proof.
  intros Lf Lt Hf. unfold to_ff_poly. rewrite (fill_ok to_ff) by auto. rewrite map_to_ff by exact Hf. reflexivity.
Qed.

(** ** is_poly_invertible *)
Lemma all_nonzero_loop n (t : list Z) : n = length t ->
  forn n 0 (fun i flg => x <- rd t i ;; Ok (flg && negb (x =? 0))) true
  = Ok (forallb (fun x => negb (x =? 0)) t).
Proof.
  intros Hn.
  assert (G : forall k i b, (i + k <= length t)%nat ->
    forn k i (fun i flg => x <- rd t i ;; Ok (flg && negb (x =? 0))) b
    = Ok (b && forallb (fun x => negb (x =? 0)) (firstn k (skipn i t)))).
  { induction k as [|k IH]; intros i b H; [simpl; rewrite andb_true_r; reflexivity|].
    cbn [forn]. rewrite (rd_Ok t i 0) by lia. cbn [bind]. rewrite IH by lia.
    assert (E : skipn i t = nth i t 0 :: skipn (S i) t).
    { clear - H. revert i H. induction t as [|h t IH]; intros i H; simpl in H; [lia|].
      destruct i; simpl; [reflexivity|]. apply IH. lia. }
    rewrite E. cbn [firstn forallb]. rewrite andb_assoc. reflexivity. }
  rewrite G by lia. cbn [andb]. rewrite Hn. simpl skipn. rewrite firstn_all. reflexivity.
Qed.

Lemma q1_neq_q0 : q1 <> q0.
Proof. intros H. apply (f_equal ofq) in H. discriminate. Qed.

Lemma q_inverse x : x <> q0 -> exists y, qmul x y = q1.
Proof.
  intros H. pattern x. rewrite <- (toq_ofq x).
  destruct (ff_inv_correct (ofq x) (ofq_canon x)) as (i & _ & _ & E).
  { intros E. apply H. apply zq_ext. rewrite E. reflexivity. }
  exists (toq i). rewrite <- toq_mul. apply toq_eq. rewrite E. reflexivity.
Qed.

Lemma is_poly_invertible_ok lg f : falcon_lg lg -> length f = (2 ^ lg)%nat -> Forall smallq f ->
  exists b, is_poly_invertible lg f = Ok b /\
   (b = true <-> forall p, (p < 2 ^ lg)%nat -> ev lg f p <> q0).
Proof.
  intros Hlg Lf Hf. unfold is_poly_invertible.
  rewrite to_ff_poly_ok by (auto; apply repeat_length). cbn [bind].
  assert (Lm : length (modq f) = (2 ^ lg)%nat) by (rewrite modq_length; exact Lf).
  destruct (ntt_ev lg (modq f) Hlg Lm (modq_canon f)) as (y & Ey & Ly & Cy & Py).
  rewrite Ey. cbn [bind]. rewrite all_nonzero_loop by auto. eexists; split; [reflexivity|].
  rewrite forallb_forall. split.
  - intros H p Hp E. rewrite <- ev_modq, <- Py in E by exact Hp.
    specialize (H (nth p y 0) (nth_In y 0 ltac:(rewrite Ly; exact Hp))).
    apply (f_equal ofq) in E. rewrite ofq_toq in E.
    rewrite Z.mod_small in E by (apply (canon_forall_nth y _ Ly Cy); exact Hp).
    rewrite E in H. discriminate.
  - intros H x Hx. apply (In_nth y x 0) in Hx. destruct Hx as (p & Hp & <-). rewrite Ly in Hp.
    specialize (H p Hp). rewrite <- ev_modq, <- Py in H by exact Hp.
    destruct (Z.eqb_spec (nth p y 0) 0) as [E|]; [|reflexivity]. rewrite E in H. exfalso; apply H; reflexivity.
Qed.

Lemma invertible_iff lg f : falcon_lg lg -> length f = (2 ^ lg)%nat ->
  (forall p, (p < 2 ^ lg)%nat -> ev lg f p <> q0) <->
  exists g, length g = (2 ^ lg)%nat /\ modq (negacyclic (2 ^ lg) f g) = onep (2 ^ lg).
Proof.
  intros Hlg Lf. split.
  - intros H.
    assert (Hi : exists y, length y = (2 ^ lg)%nat /\ Forall canon y /\
        forall p, (p < 2 ^ lg)%nat -> qmul (ev lg f p) (toq (nth p y 0)) = q1).
    { assert (G : forall n, (n <= 2 ^ lg)%nat -> exists y, length y = n /\ Forall canon y /\
        forall p, (p < n)%nat -> qmul (ev lg f p) (toq (nth p y 0)) = q1).
      { induction n as [|n IH]; intros Hn.
        - exists []. repeat split; auto. intros; lia.
        - destruct (IH ltac:(lia)) as (y & Ly & Cy & Py).
          destruct (q_inverse (ev lg f n) (H n Hn)) as (v & Ev).
          exists (y ++ [ofq v]). split; [rewrite app_length; simpl; lia|]. split.
          + apply Forall_app. split; [exact Cy|]. constructor; [apply ofq_canon|constructor].
          + intros p Hp. destruct (Nat.eq_dec p n) as [->|].
            * rewrite app_nth2 by lia. rewrite Ly, Nat.sub_diag. simpl nth. rewrite toq_ofq. exact Ev.
            * rewrite app_nth1 by lia. apply Py; lia. }
      apply G; lia. }
    destruct Hi as (y & Ly & Cy & Py).
    destruct (ev_surj lg y Hlg Ly Cy) as (g & _ & Lg & Cg & Pg).
    exists g. split; [exact Lg|].
    transitivity (modq (onep (2 ^ lg))).
    + apply (ev_inj lg); auto; [apply negacyclic_length|apply tab_length|].
      intros p Hp. rewrite ev_mul, Pg, Py, ev_onep by assumption. reflexivity.
    + unfold modq, onep, tab. rewrite map_map. apply map_ext. intros k. destruct (Nat.eqb k 0); reflexivity.
  - intros (g & Lg & Eg) p Hp E0.
    assert (E := ev_mul lg f g p Hlg). rewrite <- ev_modq, Eg, ev_onep in E by assumption.
    rewrite E0 in E. apply q1_neq_q0. rewrite E. ring.
Qed.

(** ** compute_public_key *)
Lemma fill2_ok (f g : list Z) n (tf tg : list Z) : length f = n -> length g = n -> length tf = n -> length tg = n ->
  forn n 0 (fun i (st : list Z * list Z) =>
       let '(f_, g_) := st in
       x <- rd f i ;; f_ <- wr f_ i (to_ff x) ;;
       y <- rd g i ;; g_ <- wr g_ i (to_ff y) ;; Ok (f_, g_)) (tf, tg) = Ok (map to_ff f, map to_ff g).
Proof.
  intros Lf Lg Ltf Ltg.
  destruct (forn_inv (fun i (st : list Z * list Z) => length (fst st) = n /\ length (snd st) = n /\
     forall p, (p < i)%nat -> nth p (fst st) 0 = to_ff (nth p f 0) /\ nth p (snd st) 0 = to_ff (nth p g 0))
    n 0 (fun i (st : list Z * list Z) =>
       let '(f_, g_) := st in
       x <- rd f i ;; f_ <- wr f_ i (to_ff x) ;;
       y <- rd g i ;; g_ <- wr g_ i (to_ff y) ;; Ok (f_, g_)) (tf, tg)) as ([sf sg] & E & L1 & L2 & H).
  - simpl. repeat split; auto; lia.
  - intros j [sf sg] Hj (L1 & L2 & H). simpl in L1, L2, H.
    rewrite (rd_Ok f j 0) by lia. cbn [bind]. rewrite wr_Ok by lia. cbn [bind].
    rewrite (rd_Ok g j 0) by lia. cbn [bind]. rewrite wr_Ok by lia. cbn [bind].
    eexists; split; [reflexivity|]. cbn [fst snd]. rewrite !upd_length. repeat split; auto.
    + rewrite nth_upd by lia. destruct (Nat.eqb_spec p j) as [->|]; [reflexivity|apply H; lia].
    + rewrite nth_upd by lia. destruct (Nat.eqb_spec p j) as [->|]; [reflexivity|apply H; lia].
  - rewrite E. simpl in L1, L2, H. f_equal. f_equal.
    + apply (list_ext 0); [rewrite map_length; lia|]. intros i Hi. change 0 with (to_ff 0) at 2. rewrite map_nth. apply H; lia.
    + apply (list_ext 0); [rewrite map_length; lia|]. intros i Hi. change 0 with (to_ff 0) at 2. rewrite map_nth. apply H; lia.
Qed.

Definition ff_div_val (a b : Z) : Z := match ff_div a b with Ok v => v | _ => 0 end.

Lemma ff_div_val_ok a b : canon a -> canon b -> ff_div a b = Ok (ff_div_val a b) /\ canon (ff_div_val a b) /\
  (b <> 0 -> qmul (toq (ff_div_val a b)) (toq b) = toq a).
Proof.
  intros Ha Hb. unfold ff_div_val. destruct (Z.eq_dec b 0) as [->|Hn].
  - rewrite ff_div_0 by exact Ha. repeat split; try (unfold q; lia).
  - destruct (ff_div_correct a b Ha Hb Hn) as (c & E & C & M & _). rewrite E. split; [reflexivity|]. split; [exact C|].
    intros _. rewrite <- toq_mul. apply toq_eq. rewrite M. symmetry. apply Z.mod_small. exact Ha.
Qed.

Lemma compute_public_key_ok lg f g h0 : falcon_lg lg ->
  length f = (2 ^ lg)%nat -> length g = (2 ^ lg)%nat -> length h0 = (2 ^ lg)%nat -> Forall smallq f -> Forall smallq g ->
  (forall p, (p < 2 ^ lg)%nat -> ev lg f p <> q0) ->
  exists h, compute_public_key lg f g h0 = Ok h /\ length h = (2 ^ lg)%nat /\ Forall canon h /\
    modq (negacyclic (2 ^ lg) h f) = modq g /\
    (forall h', length h' = (2 ^ lg)%nat -> Forall canon h' -> modq (negacyclic (2 ^ lg) h' f) = modq g -> h' = h).
Proof.
  intros Hlg Lf Lg Lh Hf Hg Hinv. unfold compute_public_key.
  rewrite fill2_ok by (auto; apply repeat_length). cbn [bind].
  rewrite !map_to_ff by assumption.
  assert (Lmf : length (modq f) = (2 ^ lg)%nat) by (rewrite modq_length; exact Lf).
  assert (Lmg : length (modq g) = (2 ^ lg)%nat) by (rewrite modq_length; exact Lg).
  destruct (ntt_ev lg (modq f) Hlg Lmf (modq_canon f)) as (yf & Ef & Lyf & Cyf & Pf). rewrite Ef. cbn [bind].
  destruct (ntt_ev lg (modq g) Hlg Lmg (modq_canon g)) as (yg & Eg & Lyg & Cyg & Pg). rewrite Eg. cbn [bind].
  unfold poly_div. rewrite (zipw_ok ff_div ff_div_val _ yg yf h0 0 0); auto.
  2: { intros i Hi. apply ff_div_val_ok; [apply (canon_forall_nth yg _ Lyg Cyg)|apply (canon_forall_nth yf _ Lyf Cyf)]; exact Hi. }
  cbn [bind]. set (yh := tab (2 ^ lg) _).
  assert (Lyh : length yh = (2 ^ lg)%nat) by apply tab_length.
  assert (Cyh : Forall canon yh).
  { apply Forall_nth_intro with (d := 0). rewrite Lyh. intros i Hi. unfold yh. rewrite nth_tab by exact Hi.
    apply ff_div_val_ok; [apply (canon_forall_nth yg _ Lyg Cyg)|apply (canon_forall_nth yf _ Lyf Cyf)]; exact Hi. }
  destruct (ev_surj lg yh Hlg Lyh Cyh) as (h & Eh & Lh' & Ch & Ph).
  exists h. split; [exact Eh|]. split; [exact Lh'|]. split; [exact Ch|].
  assert (Key : forall p, (p < 2 ^ lg)%nat -> qmul (ev lg h p) (ev lg f p) = ev lg g p).
  { intros p Hp. rewrite Ph by exact Hp. unfold yh. rewrite nth_tab by exact Hp.
    rewrite <- (ev_modq lg f), <- (ev_modq lg g), <- Pf, <- Pg by exact Hp.
    apply ff_div_val_ok; [apply (canon_forall_nth yg _ Lyg Cyg)|apply (canon_forall_nth yf _ Lyf Cyf)|]; try exact Hp.
    intros E. apply (Hinv p Hp). rewrite <- ev_modq, <- Pf, E by exact Hp. reflexivity. }
  split.
  - apply (ev_inj lg); auto; [apply negacyclic_length|]. intros p Hp. rewrite ev_mul by exact Hlg. apply Key; exact Hp.
  - intros h' Lh2 Ch2 E2.
    assert (M : modq h' = modq h).
    { apply (ev_inj lg); auto. intros p Hp.
      assert (K2 : qmul (ev lg h' p) (ev lg f p) = ev lg g p).
      { rewrite <- ev_mul by exact Hlg. rewrite <- ev_modq, E2, ev_modq. reflexivity. }
      destruct (q_inverse (ev lg f p) (Hinv p Hp)) as (v & Ev).
      transitivity (qmul (ev lg h' p) (qmul (ev lg f p) v)); [rewrite Ev; ring|].
      transitivity (qmul (ev lg h p) (qmul (ev lg f p) v)); [|rewrite Ev; ring].
      transitivity (qmul (qmul (ev lg h' p) (ev lg f p)) v); [ring|].
      transitivity (qmul (qmul (ev lg h p) (ev lg f p)) v); [|ring].
      rewrite K2, Key by exact Hp. reflexivity. }
    assert (Id : forall a, Forall canon a -> modq a = a).
    { intros a Ca. unfold modq. rewrite <- (map_id a) at 2. apply map_ext_in. intros x Hx.
      rewrite Forall_forall in Ca. apply Z.mod_small. apply Ca, Hx. }
    rewrite !Id in M by assumption. exact M.
Qed.
