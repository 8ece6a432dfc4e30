(** P_testf.v -- the tests of the field arithmetic and of the number theoretic transform pass. *)
From Verif Require Import Base Ring Spec M_ff P_ff M_xform P_xform P_xring Zq P_brv M_ntt P_ntt P_nttx P_units M_testf.
Open Scope Z_scope.

Lemma canon_modq x : canon (x mod q).
Proof. unfold canon. apply Z.mod_pos_bound. reflexivity. Qed.
Lemma mul_times_ok n a : canon a -> forall r, canon r -> mul_times n a r = (r * a ^ Z.of_nat n) mod q.
Proof.
  intros Ha. induction n as [|n IH]; intros r Hr; cbn [mul_times].
  - change (a ^ Z.of_nat 0) with 1. rewrite Z.mul_1_r. symmetry. apply Z.mod_small. exact Hr.
  - rewrite ff_mul_correct by (apply canon_lt14; assumption). rewrite IH by apply canon_modq. rewrite Zmult_mod_idemp_l. f_equal. rewrite Nat2Z.inj_succ, Z.pow_succ_r by lia. ring.
Qed.
Lemma ff_eq_refl a : ff_eq a a = true.
Proof. unfold ff_eq. rewrite Z.lxor_nilpotent. reflexivity. Qed.
Theorem ff_round_passes a b n : canon a -> canon b -> test_ff_round a b n = Ok true.
Proof.
  intros Ha Hb. unfold test_ff_round. change ff_zero with 0. change ff_one with 1. assert (C0 : canon 0) by (unfold canon, q; lia). assert (C1 : canon 1) by (unfold canon, q; lia).
  assert (E1 : ff_eq (ff_sub a b) (ff_add a (ff_neg b)) = true) by apply ff_eq_refl. rewrite E1. clear E1.
  rewrite (ff_mul_correct a b) by (apply canon_lt14; assumption).
  assert (E2 : exists g, ff_div ((a * b) mod q) b = Ok g /\ (if ff_eq b 0 then ff_eq g 0 else ff_eq g a) = true).
  { destruct (Z.eq_dec b 0) as [->|N].
    - exists 0. split; [apply ff_div_0, canon_modq|reflexivity].
    - destruct (ff_div_correct ((a * b) mod q) b (canon_modq _) Hb N) as (c & E & _ & _ & U). rewrite <- (U a Ha eq_refl) in E. exists a. split; [exact E|].
      destruct (ff_eq b 0) eqn:X; [|apply ff_eq_refl]. apply (ff_eq_correct b 0 Hb C0) in X. contradiction. }
  destruct E2 as (g & -> & E2). cbn [bind]. rewrite E2. clear E2.
  assert (E3 : exists h, ff_inv a = Ok h /\ (if ff_eq a 0 then ff_eq (ff_mul h a) 0 else ff_eq (ff_mul h a) 1) = true).
  { destruct (Z.eq_dec a 0) as [->|N].
    - exists 0. split; [exact ff_inv_0|reflexivity].
    - destruct (ff_inv_correct a Ha N) as (i & E & Ci & M). exists i. split; [exact E|]. rewrite ff_mul_correct by (apply canon_lt14; assumption). rewrite (Z.mul_comm i a), M.
      destruct (ff_eq a 0) eqn:X; [|reflexivity]. apply (ff_eq_correct a 0 Ha C0) in X. contradiction. }
  destruct E3 as (h & -> & E3). cbn [bind]. rewrite E3. clear E3.
  rewrite mul_times_ok by assumption. rewrite ff_pow_correct by (assumption || lia). rewrite Z.mul_1_l, ff_eq_refl. reflexivity.
Qed.

Lemma same_loop n (t : list Z) : n = length t -> forn n 0 (fun i flg => x <- rd t i ;; y <- rd t i ;; Ok (flg || negb (Z.lxor x y =? 0))) false = Ok false.
Proof.
  intros Hn. assert (G : forall k i, (i + k <= length t)%nat -> forn k i (fun i flg => x <- rd t i ;; y <- rd t i ;; Ok (flg || negb (Z.lxor x y =? 0))) false = Ok false).
  { induction k as [|k IH]; intros i H; [reflexivity|]. cbn [forn]. rewrite (rd_Ok t i 0) by lia. cbn [bind]. rewrite Z.lxor_nilpotent. cbn [Z.eqb negb orb]. apply IH. lia. }
  apply G. lia.
Qed.
Lemma pass_ok lg a b : falcon_lg lg -> length a = (2 ^ lg)%nat -> length b = (2 ^ lg)%nat -> Forall canon a -> Forall canon b ->
  test_ntt_pass lg a b = Ok (match is_poly_invertible lg b with Ok true => Some false | _ => None end).
Proof.
  intros Hlg La Lb Ca Cb. unfold test_ntt_pass, is_poly_invertible. rewrite to_ff_poly_ok by (auto using canon_small; apply repeat_length).
  assert (Eb : modq b = b). { unfold modq. rewrite <- (map_id b) at 2. apply map_ext_in. intros x Hx. apply Z.mod_small. rewrite Forall_forall in Cb. exact (Cb x Hx). }
  rewrite Eb. cbn [bind]. destruct (intt_ntt lg a Hlg La Ca) as (ya & Ea & Lya & Cya & Ia). destruct (intt_ntt lg b Hlg Lb Cb) as (yb & Eyb & Lyb & Cyb & _). rewrite Ea, Eyb. cbn [bind].
  rewrite all_nonzero_loop by auto. cbn [bind]. destruct (forallb _ yb) eqn:F; cbn [negb]; [|reflexivity]. rewrite forallb_forall in F.
  rewrite poly_mul_ok by (auto; apply repeat_length). cbn [bind]. set (yc := tab _ _).
  assert (D : poly_div lg yc yb (repeat 0 (2 ^ lg)) = Ok ya).
  { unfold poly_div. rewrite (zipw_ok ff_div ff_div_val _ yc yb _ 0 0); [| |auto|symmetry; apply repeat_length|].
    - f_equal. apply (list_ext 0); rewrite tab_length; [auto|]. intros i Hi. rewrite nth_tab by exact Hi. unfold yc. rewrite nth_tab by exact Hi.
      assert (A := Forall_nth_lt _ ya 0 i Cya ltac:(lia)). assert (B := Forall_nth_lt _ yb 0 i Cyb ltac:(lia)). assert (N : nth i yb 0 <> 0). { intros X. specialize (F (nth i yb 0) (nth_In (n:=i) yb 0 ltac:(lia))). rewrite X in F. discriminate. }
      rewrite ff_mul_correct by (apply canon_lt14; assumption). unfold ff_div_val. destruct (ff_div_correct ((nth i ya 0 * nth i yb 0) mod q) (nth i yb 0) (canon_modq _) B N) as (c & -> & _ & _ & U). symmetry. apply U; [exact A|reflexivity].
    - unfold yc. rewrite tab_length. reflexivity.
    - intros i Hi. unfold yc. rewrite nth_tab by exact Hi. assert (A := Forall_nth_lt _ ya 0 i Cya ltac:(lia)). assert (B := Forall_nth_lt _ yb 0 i Cyb ltac:(lia)). apply ff_div_val_ok; [|exact B]. rewrite ff_mul_correct by (apply canon_lt14; assumption). apply canon_modq. }
  rewrite D. cbn [bind]. rewrite Ia. cbn [bind]. rewrite same_loop by auto. reflexivity.
Qed.
Theorem ntt_test_passes lg draws : falcon_lg lg -> (forall j, length (fst (draws j)) = (2 ^ lg)%nat /\ length (snd (draws j)) = (2 ^ lg)%nat /\ Forall canon (fst (draws j)) /\ Forall canon (snd (draws j))) ->
  forall fuel j, ((exists i, (j <= i < j + fuel)%nat /\ is_poly_invertible lg (snd (draws i)) = Ok true) -> test_ntt fuel lg draws j = Ok true) /\
    ((forall i, (j <= i < j + fuel)%nat -> is_poly_invertible lg (snd (draws i)) <> Ok true) -> test_ntt fuel lg draws j = Fuel).
Proof.
  intros Hlg H. induction fuel as [|fuel IH]; intros j; cbn [test_ntt].
  - split; [intros (i & Hi & _); lia|reflexivity].
  - destruct (H j) as (L1 & L2 & C1 & C2). rewrite pass_ok by assumption. cbn [bind]. destruct (is_poly_invertible_ok lg (snd (draws j)) Hlg L2 (canon_small _ C2)) as (b & E & _). destruct (IH (S j)) as [I1 I2]. rewrite E. destruct b.
    + split; [reflexivity|]. intros X. destruct (X j ltac:(lia) E).
    + split; [intros (i & Hi & Ei); apply I1; exists i; split; [|exact Ei]; assert (i <> j) by (intros ->; congruence); lia|intros X; apply I2; intros i Hi; apply X; lia].
Qed.
