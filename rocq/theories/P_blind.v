(** P_blind.v -- uniformly random hashes: sums over all polynomials modulo q, moments of the squared norm of their lifts, and the law of
    any test on the hash. *)
From Verif Require Import Base Spec SpecR SpecS SpecG SpecJ SpecH M_float M_exact M_ff M_codec M_sig M_verify P_ff P_ntt P_nttx P_decomp P_comp P_sigx P_verify P_verifyx P_prob P_gsum P_genlaw P_tot P_theta P_kubx P_jkey P_hash P_loopk P_sim P_fit P_fitn P_ver.
From Coq Require Import FinFun Permutation Reals Lra.
Open Scope R_scope.

(** ** sums over all polynomials *)
Notation Q := (Z.to_nat q).
Lemma polys_S f n : lsum f (polys (S n)) = rsum Q (fun x => lsum (fun c => f (Z.of_nat x :: c)) (polys n)).
Proof. cbn [polys]. rewrite P_gsum.lsum_flat, <- P_gsum.lsum_seq. apply P_gsum.lsum_ext. intros x _. apply P_gsum.lsum_map. Qed.
Lemma Q_val : INR Q = 12289.
Proof. rewrite INR_IZR_INZ, Z2Nat.id by (unfold q; lia). reflexivity. Qed.
Lemma lsum_perm {X} (f : X -> R) l l' : Permutation l l' -> lsum f l = lsum f l'.
Proof. induction 1; unfold lsum in *; cbn [fold_right]; lra. Qed.

Lemma Zmod_sub_inj a b z : (0 <= a < 12289 -> 0 <= b < 12289 -> (a - z) mod 12289 = (b - z) mod 12289 -> a = b)%Z.
Proof. intros A B E. assert (X : ((a - b) mod 12289 = 0)%Z). { replace (a - b)%Z with ((a - z) - (b - z))%Z by ring. rewrite Zminus_mod, E, Z.sub_diag. reflexivity. } apply Z.mod_divide in X; [|lia]. destruct X as [y X]. lia. Qed.
(** subtracting a fixed polynomial permutes them *)
Lemma polys_shift lg s2 h f : lsum (fun c => f (s1_residues lg c s2 h)) (polys (2 ^ lg)) = lsum f (polys (2 ^ lg)).
Proof.
  rewrite <- (P_gsum.lsum_map f). apply lsum_perm. set (phi := fun c => s1_residues lg c s2 h).
  assert (IN : forall c, In (phi c) (polys (2 ^ lg))). { intros c. apply polys_in. split; [apply tab_length|apply s1_canon]. }
  assert (NM : NoDup (map phi (polys (2 ^ lg)))).
  { assert (P := polys_nodup (2 ^ lg)). assert (G : forall c c', In c (polys (2 ^ lg)) -> In c' (polys (2 ^ lg)) -> phi c = phi c' -> c = c').
    { intros c c' H H' E. apply polys_in in H, H'. destruct H as [L C]. destruct H' as [L' C']. apply (nth_ext _ _ 0%Z 0%Z); [congruence|]. intros i Hi.
      assert (Ei := f_equal (fun l => nth i l 0%Z) E). cbv beta in Ei. unfold phi, s1_residues in Ei. rewrite !nth_tab in Ei by lia.
      assert (Ci := Forall_nth_lt _ c 0%Z i C ltac:(lia)). assert (Ci' := Forall_nth_lt _ c' 0%Z i C' ltac:(lia)). unfold canon, q in *. apply (Zmod_sub_inj _ _ _ Ci Ci' Ei). }
    clear IN. induction P as [|c l Hc P IH]; [constructor|]. cbn [map]. constructor.
    - intros H. apply in_map_iff in H. destruct H as (c' & E & Hc'). apply Hc. rewrite <- (G c' c); [exact Hc'|right; exact Hc'|left; reflexivity|exact E].
    - apply IH. intros a b Ha Hb. apply G; right; assumption. }
  apply NoDup_Permutation_bis; [exact NM|rewrite map_length; lia|]. intros x Hx. apply in_map_iff in Hx. destruct Hx as (c & <- & _). apply IN.
Qed.

(** ** deviation of the squared norm from its mean *)
Section Moments.
Variable d : Z -> R.
Variable v : R.
Hypothesis d1 : rsum Q (fun x => d (Z.of_nat x)) = 0.
Hypothesis d2 : rsum Q (fun x => d (Z.of_nat x) ^ 2) = 12289 * v.
Definition dev (c : list Z) : R := lsum d c.
Lemma dev_1 n : lsum dev (polys n) = 0.
Proof.
  induction n as [|n IH]; [unfold lsum, dev, lsum; cbn; ring|]. rewrite polys_S.
  rewrite (rsum_ext Q _ (fun x => 12289 ^ n * d (Z.of_nat x))).
  - rewrite rsum_scal, d1. ring.
  - intros x _. rewrite (P_gsum.lsum_ext _ (fun c => d (Z.of_nat x) + dev c)) by (intros c _; reflexivity). rewrite P_gsum.lsum_plus, polys_const, IH. ring.
Qed.
Lemma dev_2 n : lsum (fun c => dev c ^ 2) (polys n) = 12289 ^ n * (INR n * v).
Proof.
  induction n as [|n IH]; [unfold lsum, dev, lsum; cbn; ring|]. rewrite polys_S.
  rewrite (rsum_ext Q _ (fun x => 12289 ^ n * d (Z.of_nat x) ^ 2 + 12289 ^ n * (INR n * v))).
  - rewrite rsum_plus, rsum_scal, rsum_const, d2, Q_val, S_INR. cbn [pow]. ring.
  - intros x _. rewrite (P_gsum.lsum_ext _ (fun c => d (Z.of_nat x) ^ 2 + (2 * d (Z.of_nat x) * dev c + dev c ^ 2))).
    + rewrite !P_gsum.lsum_plus, polys_const, P_gsum.lsum_scal, dev_1, IH. ring.
    + intros c _. change (dev (Z.of_nat x :: c)) with (d (Z.of_nat x) + dev c). ring.
Qed.
(** one-sided Chebyshev inequality *)
Lemma cantelli n (t l u : R) : t = 1 \/ t = -1 -> 0 <= l -> 0 <= u -> 0 < l + u ->
  lsum (fun c => if Rlt_dec l (t * dev c) then 1 else 0) (polys n) * (l + u) ^ 2 <= 12289 ^ n * (INR n * v + u ^ 2).
Proof.
  intros Ht l0 u0 lu. rewrite Rmult_comm, <- P_gsum.lsum_scal.
  apply Rle_trans with (lsum (fun c => dev c ^ 2 + (2 * t * u * dev c + u ^ 2)) (polys n)).
  - apply P_gsum.lsum_le. intros c _. destruct (Rlt_dec l (t * dev c)) as [H|H].
    + replace (dev c ^ 2 + (2 * t * u * dev c + u ^ 2)) with ((t * dev c + u) ^ 2) by (destruct Ht as [-> | ->]; ring). rewrite Rmult_1_r. apply pow_incr. lra.
    + replace (dev c ^ 2 + (2 * t * u * dev c + u ^ 2)) with ((t * dev c + u) ^ 2) by (destruct Ht as [-> | ->]; ring). rewrite Rmult_0_r. apply pow2_ge_0.
  - rewrite !P_gsum.lsum_plus, P_gsum.lsum_scal, dev_1, dev_2, polys_const. lra.
Qed.
End Moments.

(** ** the squares of the lifts *)
Lemma sum_2 a n : rsum n (fun i => (INR i - a) ^ 2) = (INR n - 1) * INR n * (2 * INR n - 1) / 6 - a * (INR n * (INR n - 1)) + INR n * a ^ 2.
Proof. induction n as [|n IH]; [cbn; field|]. cbn [rsum]. rewrite IH, S_INR. field. Qed.
Lemma sum_4 a n : rsum n (fun i => (INR i - a) ^ 4) = (INR n - 1) * INR n * (2 * INR n - 1) * (3 * INR n ^ 2 - 3 * INR n - 1) / 30 - a * (INR n ^ 2 * (INR n - 1) ^ 2) +
  a ^ 2 * ((INR n - 1) * INR n * (2 * INR n - 1)) - 2 * a ^ 3 * (INR n * (INR n - 1)) + INR n * a ^ 4.
Proof. induction n as [|n IH]; [cbn; field|]. cbn [rsum]. rewrite IH, S_INR. field. Qed.
Lemma lift_split (phi : R -> R) : rsum Q (fun x => phi (IZR (lift (Z.of_nat x)))) = rsum (Z.to_nat 6144) (fun i => phi (INR i - 0)) + rsum (Z.to_nat 6145) (fun i => phi (INR i - 6145)).
Proof.
  replace Q with (Z.to_nat 6144 + Z.to_nat 6145)%nat by (unfold q; lia). rewrite rsum_app. apply f_equal2.
  - apply rsum_ext. intros i Hi. apply f_equal. unfold lift. replace (Z.of_nat i <? 6144)%Z with true by (symmetry; apply Z.ltb_lt; lia). rewrite INR_IZR_INZ. ring.
  - apply rsum_ext. intros i Hi. apply f_equal. unfold lift. replace (Z.of_nat (Z.to_nat 6144 + i) <? 6144)%Z with false by (symmetry; apply Z.ltb_ge; lia).
    rewrite Nat2Z.inj_add, Z2Nat.id by lia. rewrite INR_IZR_INZ. unfold q. rewrite minus_IZR, plus_IZR. ring.
Qed.
Lemma INR_Z z : (0 <= z)%Z -> INR (Z.to_nat z) = IZR z.
Proof. intros H. rewrite INR_IZR_INZ, Z2Nat.id by exact H. reflexivity. Qed.
Definition dl (x : Z) : R := IZR (lift x) ^ 2 - 12584961.
Lemma lift_2 : rsum Q (fun x => IZR (lift (Z.of_nat x)) ^ 2) = 12289 * 12584961.
Proof. rewrite (lift_split (fun y => y ^ 2)), !sum_2, !INR_Z by lia. field. Qed.
Lemma lift_4 : rsum Q (fun x => IZR (lift (Z.of_nat x)) ^ 4) = 12289 * 285086265755649.
Proof. rewrite (lift_split (fun y => y ^ 4)), !sum_4, !INR_Z by lia. field. Qed.
Lemma dl_1 : rsum Q (fun x => dl (Z.of_nat x)) = 0.
Proof. unfold dl. rewrite (rsum_ext Q _ (fun x => IZR (lift (Z.of_nat x)) ^ 2 + - 12584961)) by (intros; ring). rewrite rsum_plus, rsum_const, lift_2, Q_val. ring. Qed.
Lemma dl_2 : rsum Q (fun x => dl (Z.of_nat x) ^ 2) = 12289 * 126705022384128.
Proof.
  unfold dl. rewrite (rsum_ext Q _ (fun x => IZR (lift (Z.of_nat x)) ^ 4 + (- 25169922 * IZR (lift (Z.of_nat x)) ^ 2 + 12584961 ^ 2))) by (intros; ring).
  rewrite !rsum_plus, rsum_scal, rsum_const, lift_4, lift_2, Q_val. ring.
Qed.
Lemma dev_dl c : dev dl c = IZR (sqnorm (map lift c)) - INR (length c) * 12584961.
Proof.
  induction c as [|x c IH]; [unfold dev, lsum; cbn; ring|]. change (dev dl (x :: c)) with (dl x + dev dl c). rewrite IH. cbn [map]. rewrite sqnorm_cons, plus_IZR, mult_IZR.
  change (length (x :: c)) with (S (length c)). rewrite S_INR. unfold dl. ring.
Qed.

(** ** any test on the hash of a uniformly random stream *)
Definition share (lg : nat) (t : list Z -> bool) : R := lsum (fun c => P_prob.ind (t c)) (polys (2 ^ lg)) / 12289 ^ 2 ^ lg.
Lemma hash_test lg salt msg k (t : list Z -> bool) (ev : list Z -> bool) :
  (forall w, length w = (136 * k)%nat -> bytes w -> ev w = match hash_to_point k (fun _ => stream w) lg salt msg (repeat 0%Z (2 ^ lg)) with Ok c => t c | _ => false end) ->
  exists p, 1 - 16 ^ 2 ^ lg / 8 ^ (68 * k) <= p <= 1 /\ prob (136 * k) ev = p * share lg t.
Proof.
  intros HE. set (run := fun w => hash_to_point k (fun _ => stream w) lg salt msg (repeat 0%Z (2 ^ lg))). set (p := prob (136 * k) (fun w => done (run w))).
  assert (HL : forall c, In c (polys (2 ^ lg)) -> prob (136 * k) (fun w => hashes_to (run w) c) = p / 12289 ^ 2 ^ lg /\ 1 - 16 ^ 2 ^ lg / 8 ^ (68 * k) <= p).
  { intros c Hc. apply polys_in in Hc. destruct Hc as [L C]. exact (hash_law lg salt msg (repeat 0%Z (2 ^ lg)) k c (repeat_length _ _) L C). }
  exists p. split.
  - split; [|apply prob_range]. apply (HL (repeat 0%Z (2 ^ lg))). apply polys_in. split; [apply repeat_length|]. apply Forall_forall. intros x Hx. apply repeat_spec in Hx. subst x. unfold canon, q. lia.
  - rewrite prob_avg. rewrite (avg_ext _ _ (fun w => lsum (fun c => P_prob.ind (t c) * P_prob.ind (hashes_to (run w) c)) (polys (2 ^ lg)))).
    + rewrite avg_lsum. unfold share. rewrite (P_gsum.lsum_ext _ (fun c => p / 12289 ^ 2 ^ lg * P_prob.ind (t c))).
      * rewrite P_gsum.lsum_scal. unfold Rdiv. ring.
      * intros c Hc. rewrite avg_scal, <- prob_avg. rewrite (proj1 (HL c Hc)). ring.
    + intros w Lw Bw. rewrite (HE w Lw Bw). fold (run w). destruct (run w) as [c| |] eqn:E.
      * assert (Hc : In c (polys (2 ^ lg))). { apply polys_in. unfold run in E. apply hash_hashed in E; [|apply P_hash.stream_bytes; exact Bw|apply repeat_length]. apply hashed_facts in E. exact E. }
        rewrite (P_genlaw.lsum_one _ _ c (polys_nodup _) Hc).
        -- cbn [hashes_to]. destruct (list_eq_dec Z.eq_dec c c); [cbn [P_prob.ind]; ring|contradiction].
        -- intros a _ Ha. cbn [hashes_to]. destruct (list_eq_dec Z.eq_dec c a) as [->|]; [contradiction|]. cbn [P_prob.ind]. ring.
      * symmetry. apply P_genlaw.lsum_zero. intros c _. cbn [hashes_to P_prob.ind]. ring.
      * symmetry. apply P_genlaw.lsum_zero. intros c _. cbn [hashes_to P_prob.ind]. ring.
Qed.

(** ** few hashes are near a given point *)
Lemma polys_prod (phi : Z -> R) n : lsum (fun c => Rprod (map phi c)) (polys n) = rsum Q (fun x => phi (Z.of_nat x)) ^ n.
Proof.
  induction n as [|n IH]; [unfold lsum, Rprod; cbn; ring|]. rewrite polys_S. cbn [pow]. rewrite <- IH, (Rmult_comm (rsum _ _)), <- rsum_scal. apply rsum_ext. intros x _. rewrite Rmult_comm, <- P_gsum.lsum_scal. apply P_gsum.lsum_ext.
  intros c _. reflexivity.
Qed.
