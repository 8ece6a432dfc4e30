(** P_wide.v -- Gaussian sums for a deviation 11/10 times as large: at most 11/10 of the sum, up to 2^-35; and sums of products along a program. *)
From Verif Require Import Base Spec SpecR SpecS SpecG SpecJ M_float M_exact M_samp P_prob P_dist P_gsum P_joint P_prog P_jprob P_tot P_theta P_jfin P_jtot P_jgauss.
From Verif Require P_exp P_exact.
From Coq Require Import Reals Lra.
Open Scope R_scope.

(** ** residue classes *)
Lemma tot_lists (a : nat) (g : nat -> Z -> R) G : (forall j, (j < a)%nat -> tot (g j) (G j)) -> forall n b, (n <= a)%nat ->
  (forall l : nat -> list Z, (forall j, NoDup (l j)) -> rsum n (fun j => lsum (g j) (l j)) <= b) -> rsum n G <= b.
Proof.
  intros HT. induction n as [|n IH]; intros b Hn H; cbn [rsum]; [exact (H (fun _ => []) (fun _ => NoDup_nil _))|].
  assert (X : G n <= b - rsum n G); [|lra]. apply (tot_ub _ _ _ (HT n ltac:(lia))). intros ln Nn.
  assert (Y : rsum n G <= b - lsum (g n) ln); [|lra]. apply IH; [lia|]. intros l Nl.
  specialize (H (fun j => if Nat.eqb j n then ln else l j)). cbn [rsum] in H. rewrite Nat.eqb_refl in H.
  rewrite (rsum_ext n _ (fun j => lsum (g j) (l j))) in H; [|intros j Hj; rewrite (proj2 (Nat.eqb_neq j n)) by lia; reflexivity].
  assert (rsum n (fun j => lsum (g j) (l j)) + lsum (g n) ln <= b); [|lra]. apply H. intros j. destruct (Nat.eqb j n); [exact Nn|apply Nl].
Qed.
Section Mod.
Variable a : nat.
Hypothesis Ha : (0 < a)%nat.
Notation A := (Z.of_nat a).
Variable f : Z -> R.
Definition cls (j : nat) (l : list Z) : list Z := map (fun z => z / A)%Z (filter (fun z => z mod A =? Z.of_nat j)%Z l).
Lemma cls_sum l : lsum f l = rsum a (fun j => lsum (fun y => f (A * y + Z.of_nat j)%Z) (cls j l)).
Proof.
  induction l as [|z l IH]; [rewrite (rsum_ext a _ (fun _ => 0)) by reflexivity; rewrite rsum_const; unfold lsum; cbn; ring|].
  unfold lsum at 1. cbn [fold_right]. fold (lsum f l). rewrite IH. set (j0 := Z.to_nat (z mod A)). assert (M := Z.mod_pos_bound z A ltac:(lia)).
  assert (E : forall j, (j < a)%nat -> lsum (fun y => f (A * y + Z.of_nat j)%Z) (cls j (z :: l)) = (if Nat.eqb j j0 then f z else 0) + lsum (fun y => f (A * y + Z.of_nat j)%Z) (cls j l)).
  { intros j Hj. unfold cls. cbn [filter]. destruct (Nat.eqb_spec j j0) as [->|Nj].
    - assert (Ej : Z.of_nat j0 = (z mod A)%Z) by (unfold j0; rewrite Z2Nat.id by lia; reflexivity). rewrite Ej, Z.eqb_refl. cbn [map]. unfold lsum. cbn [fold_right]. f_equal. f_equal. symmetry. apply Z.div_mod. lia.
    - rewrite (proj2 (Z.eqb_neq _ _)) by (intros E; apply Nj; unfold j0; rewrite E, Nat2Z.id; reflexivity). ring. }
  rewrite (rsum_ext a _ _ E), rsum_plus. f_equal. rewrite (rsum_one a j0); [rewrite Nat.eqb_refl; reflexivity|unfold j0; lia|]. intros i _ Ni. rewrite (proj2 (Nat.eqb_neq i j0) Ni). reflexivity.
Qed.
Lemma cls_nodup j l : NoDup l -> NoDup (cls j l).
Proof.
  unfold cls. induction 1 as [|z l Hz N IH]; [constructor|]. cbn [filter]. destruct (Z.eqb_spec (z mod A) (Z.of_nat j)) as [E|E]; [|exact IH]. cbn [map]. constructor; [|exact IH].
  intros H. apply in_map_iff in H. destruct H as (y & Ey & Hy). apply filter_In in Hy. destruct Hy as [Hy Ej]. apply Z.eqb_eq in Ej. apply Hz. replace z with y; [exact Hy|].
  rewrite (Z.div_mod y A), (Z.div_mod z A) by lia. rewrite Ey, Ej, E. reflexivity.
Qed.
Lemma tot_mod G : (forall j, (j < a)%nat -> tot (fun y => f (A * y + Z.of_nat j)%Z) (G j)) -> tot f (rsum a G).
Proof.
  intros HT. split.
  - intros x (l & N & ->). rewrite cls_sum. assert (H : forall n, (n <= a)%nat -> rsum n (fun j => lsum (fun y => f (A * y + Z.of_nat j)%Z) (cls j l)) <= rsum n G); [|apply H, le_n].
    induction n as [|n IH]; intros Hn; cbn [rsum]; [lra|]. apply Rplus_le_compat; [apply IH; lia|]. apply (tot_le _ _ _ (HT n ltac:(lia))). apply cls_nodup. exact N.
  - intros b Hb. apply (tot_lists a (fun j y => f (A * y + Z.of_nat j)%Z) G HT a b (le_n _)). intros l Nl.
    set (L := fun n => flat_map (fun j => map (fun y => A * y + Z.of_nat j)%Z (l j)) (seq 0 n)).
    assert (H : forall n, (n <= a)%nat -> NoDup (L n) /\ rsum n (fun j => lsum (fun y => f (A * y + Z.of_nat j)%Z) (l j)) = lsum f (L n) /\ forall z, In z (L n) -> (z mod A < Z.of_nat n)%Z).
    { induction n as [|n IH]; intros Hn; [split; [constructor|split; [reflexivity|intros z []]]|]. destruct (IH ltac:(lia)) as (N1 & E1 & M1). unfold L in *. rewrite seq_S, flat_map_app. cbn [Nat.add flat_map]. rewrite app_nil_r.
      assert (M : forall y, ((A * y + Z.of_nat n) mod A = Z.of_nat n)%Z) by (intros y; rewrite Z.add_comm, Z.mul_comm, Z.mod_add by lia; apply Z.mod_small; lia). split; [|split].
      - apply NoDup_app'; [exact N1|apply NoDup_map_inj; [intros x y Exy; nia|apply Nl]|]. intros x Hx Hx'. apply M1 in Hx. apply in_map_iff in Hx'. destruct Hx' as (y & <- & _). rewrite M in Hx. lia.
      - cbn [rsum]. rewrite lsum_app, lsum_map, E1. reflexivity.
      - intros z Hz. apply in_app_iff in Hz. destruct Hz as [Hz|Hz]; [apply M1 in Hz; lia|]. apply in_map_iff in Hz. destruct Hz as (y & <- & _). rewrite M. lia. }
    destruct (H a (le_n _)) as (N1 & E1 & _). rewrite E1. apply Hb. exists (L a). split; [exact N1|reflexivity].
Qed.
End Mod.

(** ** sums of Gaussian weights, wider range *)
Lemma free_wide s : 12778 / 10000 <= s <= 25 / 10 -> W (/ (2 * s ^ 2)) (/ 2 ^ 38).
Proof.
  intros Hs. assert (S2 : 0 < s ^ 2) by (apply pow_lt; lra). destruct (Rle_or_lt s (18205 / 10000)) as [H|H].
  - set (k0 := 8 / s ^ 2). assert (B : (12778 / 10000) ^ 2 <= s ^ 2 <= (18205 / 10000) ^ 2) by (split; apply pow_incr; lra).
    assert (Hk : 241 / 100 <= k0 <= 49 / 10). { unfold k0. split; apply Rmult_le_reg_r with (1 := S2); replace (8 / s ^ 2 * s ^ 2) with 8 by (field; lra); lra. }
    assert (E := from_4 k0 Hk 4%nat (le_n 4)). replace (/ (2 * s ^ 2)) with (k0 / 2 ^ 4); [exact E|]. unfold k0. field. lra.
  - set (k0 := 16 / s ^ 2). assert (B : (1815 / 1000) ^ 2 <= s ^ 2 <= (25 / 10) ^ 2) by (split; apply pow_incr; lra).
    assert (Hk : 241 / 100 <= k0 <= 49 / 10). { unfold k0. split; apply Rmult_le_reg_r with (1 := S2); replace (16 / s ^ 2 * s ^ 2) with 16 by (field; lra); lra. }
    assert (E := from_4 k0 Hk 5%nat ltac:(lia)). replace (/ (2 * s ^ 2)) with (k0 / 2 ^ 5); [exact E|]. unfold k0. field. lra.
Qed.
Lemma has_wide s : 1 <= s <= 25 / 10 -> hasth (/ (2 * s ^ 2)).
Proof.
  intros Hs c. apply (th_exn 1). assert (S2 : 0 < s ^ 2) by (apply pow_lt; lra). assert (B : s ^ 2 <= (25 / 10) ^ 2) by (apply pow_incr; lra).
  replace (4 ^ 1 * / (2 * s ^ 2)) with (2 / s ^ 2) by (field; lra). apply Rmult_le_reg_r with (1 := S2). replace (2 / s ^ 2 * s ^ 2) with 2 by (field; lra). lra.
Qed.
Lemma rsum_le_all n f g : (forall i, (i < n)%nat -> f i <= g i) -> rsum n f <= rsum n g.
Proof. induction n as [|n IH]; intros H; cbn [rsum]; [lra|]. apply Rplus_le_compat; [apply IH; intros; apply H; lia|apply H; lia]. Qed.
Lemma fun_ex (P : nat -> R -> Prop) : (forall j, exists G, P j G) -> forall n, exists G, forall j, (j < n)%nat -> P j (G j).
Proof.
  intros H. induction n as [|n [G HG]]; [exists (fun _ => 0); intros; lia|]. destruct (H n) as [g Hg]. exists (fun j => if Nat.eqb j n then g else G j). intros j Hj.
  destruct (Nat.eqb_spec j n) as [->|Nj]; [exact Hg|apply HG; lia].
Qed.
Lemma sum_wide s c G G' : 12778 / 10000 <= s <= 18205 / 10000 -> th (/ (2 * s ^ 2)) c G -> th (/ (2 * (11 / 10 * s) ^ 2)) c G' -> G' <= 11 / 10 * (1 + / 2 ^ 35) * G.
Proof.
  intros Hs HG HG'. set (k := / (2 * s ^ 2)) in *. set (k' := / (2 * (11 / 10 * s) ^ 2)) in *. set (K := k / 121). assert (S2 : 0 < s ^ 2) by (apply pow_lt; lra).
  assert (Ek : k = K * 121) by (unfold K; field). assert (Ek' : k' = K * 100) by (unfold k', K, k; field; lra).
  set (f := fun z : Z => exp (- (K * (IZR z - 10 * c) ^ 2))).
  destruct (fun_ex (fun j G => th k ((10 * c - INR j) / 11) G) (fun j => has_wide s ltac:(lra) _) 11) as [A HA].
  destruct (fun_ex (fun j G => th k' ((10 * c - INR j) / 10) G) (fun j => has_wide (11 / 10 * s) ltac:(lra) _) 10) as [B HB].
  assert (TA : tot f (rsum 11 A)).
  { apply tot_mod; [lia|]. intros j Hj. specialize (HA j Hj). revert HA. unfold th. apply tot_ext. intros y. unfold f. f_equal. f_equal. rewrite plus_IZR, mult_IZR, <- (INR_IZR_INZ j), Ek. change (IZR (Z.of_nat 11)) with 11. field. }
  assert (TB : tot f (rsum 10 B)).
  { apply tot_mod; [lia|]. intros j Hj. specialize (HB j Hj). revert HB. unfold th. apply tot_ext. intros y. unfold f. f_equal. f_equal. rewrite plus_IZR, mult_IZR, <- (INR_IZR_INZ j), Ek'. change (IZR (Z.of_nat 10)) with 10. field. }
  assert (E := tot_unique _ _ _ TA TB). assert (E38 : 0 < / 2 ^ 38 <= / 2 ^ 10) by (apply inv2_le; lia). assert (E10 : / 2 ^ 10 = / 1024) by (f_equal; lra).
  assert (E35 : / 2 ^ 35 = 8 * / 2 ^ 38) by (rewrite (inv2_S 35), (inv2_S 36), (inv2_S 37); ring). set (e := / 2 ^ 38) in *.
  assert (G0 := th_pos _ _ _ HG). assert (G0' := th_pos _ _ _ HG').
  assert (U : rsum 11 A * (1 - e) <= 11 * (G * (1 + e))).
  { rewrite Rmult_comm, <- rsum_scal. apply Rle_trans with (rsum 11 (fun _ => G * (1 + e))); [|rewrite rsum_const; simpl INR; lra]. apply rsum_le_all. intros j Hj. rewrite Rmult_comm. apply (free_wide s ltac:(lra) _ _ _ _ (HA j Hj) HG). }
  assert (V : 10 * (G' * (1 - e)) <= rsum 10 B * (1 + e)).
  { rewrite (Rmult_comm (rsum 10 B)), <- rsum_scal. apply Rle_trans with (rsum 10 (fun _ => G' * (1 - e))); [rewrite rsum_const; simpl INR; lra|]. apply rsum_le_all. intros j Hj. rewrite (Rmult_comm (1 + e)). apply (free_wide (11 / 10 * s) ltac:(lra) _ _ _ _ HG' (HB j Hj)). }
  rewrite <- E in V. rewrite E35. set (S := rsum 11 A) in *.
  assert (X : 10 * (G' * (1 - e)) * (1 - e) <= 11 * (G * (1 + e)) * (1 + e)).
  { apply Rle_trans with (S * (1 + e) * (1 - e)); [apply Rmult_le_compat_r; lra|]. replace (S * (1 + e) * (1 - e)) with (S * (1 - e) * (1 + e)) by ring. apply Rmult_le_compat_r; lra. }
  assert (Y : (1 + e) * (1 + e) <= (1 + 8 * e) * ((1 - e) * (1 - e))) by nra.
  apply Rmult_le_reg_r with ((1 - e) * (1 - e)); [apply Rmult_lt_0_compat; lra|].
  apply Rle_trans with (11 / 10 * G * ((1 + e) * (1 + e))); [lra|].
  replace (11 / 10 * (1 + 8 * e) * G * ((1 - e) * (1 - e))) with (11 / 10 * G * ((1 + 8 * e) * ((1 - e) * (1 - e)))) by ring. apply Rmult_le_compat_l; lra.
Qed.

(** ** products along a program *)
Section Jd.
Variable F : fops.
Variable J : D F -> D F -> Z -> R.
Hypothesis J0 : forall mu s v, 0 <= J mu s v.
Hypothesis J1 : forall mu s V, NoDup V -> lsum (J mu s) V <= 1.
Fixpoint jd {A} (p : prog F A) (vs : list Z) : R :=
  match p, vs with Ret _, [] => 1 | Call mu s c, v :: r => J mu s v * jd (c v) r | _, _ => 0 end.
Lemma lsum_zero {X} (f : X -> R) L : (forall x, In x L -> f x = 0) -> lsum f L = 0.
Proof. intros H. induction L as [|x L IH]; unfold lsum in *; cbn [fold_right]; [reflexivity|]. rewrite (H x), IH; [ring|intros y Hy; apply H; right; exact Hy|left; reflexivity]. Qed.
Lemma jd_sum {A} (p : prog F A) L : NoDup L -> lsum (jd p) L <= 1.
Proof.
  revert L. induction p as [a|mu s c IH|b]; intros L N.
  - assert (lsum (jd (@Ret F A a)) L <= 1 /\ (~ In [] L -> lsum (jd (@Ret F A a)) L = 0)) as [H _]; [|exact H]. induction N as [|[|v r] L Hx N [IH IH']]; unfold lsum in *; cbn [fold_right].
    + split; [lra|reflexivity].
    + rewrite (IH' Hx). cbn [jd]. split; [lra|]. intros H. exfalso. apply H. left. reflexivity.
    + cbn [jd]. rewrite Rplus_0_l. split; [exact IH|]. intros H. apply IH'. intros K. apply H. right. exact K.
  - assert (G : forall V (L : list (list Z)), NoDup V -> NoDup L -> (forall v r, In (v :: r) L -> In v V) -> lsum (jd (Call mu s c)) L <= lsum (J mu s) V).
    { clear L N. induction V as [|v V IHV]; intros L NV NL Hin.
      - right. etransitivity; [apply lsum_zero|reflexivity]. intros [|v r] H; [reflexivity|destruct (Hin v r H)].
      - inversion NV as [|? ? Hv NV']. subst. set (isv := fun x : list Z => match x with u :: _ => Z.eqb u v | [] => false end).
        assert (Sp : lsum (jd (Call mu s c)) L = lsum (jd (Call mu s c)) (filter isv L) + lsum (jd (Call mu s c)) (filter (fun x => negb (isv x)) L)).
        { clear. induction L as [|x L IH]; [unfold lsum; cbn; ring|]. cbn [filter]. destruct (isv x); cbn [negb]; unfold lsum in *; cbn [fold_right]; rewrite IH; ring. }
        rewrite Sp. unfold lsum at 3. cbn [fold_right]. apply Rplus_le_compat.
        + assert (exists R, filter isv L = map (cons v) R /\ NoDup R) as (R & E & NR).
          { exists (map (@tl Z) (filter isv L)). assert (E : filter isv L = map (cons v) (map (@tl Z) (filter isv L))).
            { rewrite map_map. rewrite <- (map_id (filter isv L)) at 1. apply map_ext_in. intros [|u r] H; apply filter_In in H; destruct H as [_ H]; cbn in H; [discriminate|]. apply Z.eqb_eq in H. subst u. reflexivity. }
            split; [exact E|]. assert (NF := NoDup_filter isv NL). rewrite E in NF. apply NoDup_map_inv in NF. exact NF. }
          rewrite E, lsum_map. cbn [jd]. rewrite lsum_scal. rewrite <- (Rmult_1_r (J mu s v)) at 2. apply Rmult_le_compat_l; [apply J0|]. apply IH. exact NR.
        + apply IHV; [exact NV'|apply NoDup_filter; exact NL|]. intros u r H. apply filter_In in H. destruct H as [H K]. cbn in K. destruct (Hin u r H) as [->|H']; [rewrite Z.eqb_refl in K; discriminate|exact H']. }
    eapply Rle_trans; [apply (G (nodup Z.eq_dec (flat_map (fun x => match x with v :: _ => [v] | [] => [] end) L)) L)|].
    + apply NoDup_nodup.
    + exact N.
    + intros v r H. apply nodup_In, in_flat_map. exists (v :: r). split; [exact H|left; reflexivity].
    + apply J1, NoDup_nodup.
  - rewrite lsum_zero; [lra|]. intros x _. reflexivity.
Qed.
End Jd.

(** the weights for a deviation 11/10 times as large, over the sum of the narrow ones *)
Notation cw := (11 / 10 * (1 + / 2 ^ 35)).
Definition JW (mu s : R) (v : Z) : R := if Rle_dec (12778 / 10000) s then if Rle_dec s (18205 / 10000) then rho (11 / 10 * s) mu (IZR v) / (cw * gsum s mu) else 0 else 0.
Lemma cw_pos : 0 < cw. Proof. assert (0 < / 2 ^ 35) by (apply Rinv_0_lt_compat, pow_lt; lra). lra. Qed.
Lemma JW_pos mu s v : 0 <= JW mu s v.
Proof.
  unfold JW. destruct (Rle_dec (12778 / 10000) s) as [H1|H1]; [|lra]. destruct (Rle_dec s (18205 / 10000)) as [H2|H2]; [|lra]. destruct (gsum_ok mu s ltac:(lra) H2) as (_ & P & _). assert (C := cw_pos).
  left. apply Rdiv_lt_0_compat; [apply exp_pos|apply Rmult_lt_0_compat; lra].
Qed.
Lemma JW_sum mu s V : NoDup V -> lsum (JW mu s) V <= 1.
Proof.
  intros N. unfold JW. destruct (Rle_dec (12778 / 10000) s) as [H1|H1]; [|rewrite lsum_zero; [lra|reflexivity]]. destruct (Rle_dec s (18205 / 10000)) as [H2|H2]; [|rewrite lsum_zero; [lra|reflexivity]].
  destruct (gsum_ok mu s ltac:(lra) H2) as (G & P & _). assert (C := cw_pos). assert (G1 := proj1 (th_gauss s mu _ ltac:(lra)) G). destruct (has_wide (11 / 10 * s) ltac:(lra) mu) as [G' HG'].
  assert (S := sum_wide s mu _ _ (conj H1 H2) G1 HG'). apply th_gauss in HG'; [|lra]. assert (D : 0 < cw * gsum s mu) by (apply Rmult_lt_0_compat; lra).
  rewrite (lsum_ext _ (fun v => / (cw * gsum s mu) * rho (11 / 10 * s) mu (IZR v))) by (intros; unfold Rdiv; ring). rewrite lsum_scal. apply Rmult_le_reg_l with (cw * gsum s mu); [exact D|]. rewrite <- Rmult_assoc, Rinv_r, Rmult_1_l, Rmult_1_r by lra.
  eapply Rle_trans; [|exact S]. destruct HG' as [U _]. apply U. exists V. split; [exact N|reflexivity].
Qed.
Lemma four_w (a b c d e f : R) : a / (e * b) * (c / (f * d)) = a * c / (e * f * (b * d)).
Proof. unfold Rdiv. rewrite !Rinv_mult. ring. Qed.
Lemma jd_energy {A} : forall (p : prog RF A) (cs : list call) a, pcalls p cs a -> Forall (fun k => 12778 / 10000 <= stddev k <= 18205 / 10000) cs ->
  jd RF JW p (map snd cs) = exp (- (100 / 121 * energy cs)) / (cw ^ length cs * Rprod (map (fun c => gsum (stddev c) (centre c)) cs)).
Proof.
  induction p as [b|mu s c IH|u]; intros cs a H Fs; cbn [pcalls] in H; [|destruct H as (z & r & -> & H)|tauto].
  - destruct H as [-> ->]. cbn. rewrite Rmult_0_r, Ropp_0, exp_0. lra.
  - inversion Fs as [|? ? Hs Fr]. subst. cbn [stddev fst snd] in Hs. cbn [map snd jd]. rewrite (IH z r a H Fr). unfold JW. destruct (Rle_dec (12778 / 10000) s) as [H1|H1]; [|exfalso; apply H1, Hs]. destruct (Rle_dec s (18205 / 10000)) as [H2|H2]; [|exfalso; apply H2, Hs].
    change (energy ((mu, s, z) :: r)) with ((IZR z - mu) * (IZR z - mu) / (2 * (s * s)) + energy r).
    unfold Rprod. cbn [map fold_right stddev centre fst snd length]. fold (Rprod (map (fun c : call => gsum (stddev c) (centre c)) r)). rewrite (Rmult_plus_distr_l (100 / 121)), Ropp_plus_distr, exp_plus. unfold rho.
    replace ((IZR z - mu) ^ 2 / (2 * (11 / 10 * s) ^ 2)) with (100 / 121 * ((IZR z - mu) * (IZR z - mu) / (2 * (s * s)))) by (field; change (s <> 0); lra).
    rewrite <- tech_pow_Rmult. apply four_w.
Qed.
