(** P_bytes.v -- how many random bytes ber_exp and samplerz consume. *)
From Verif Require Import Base Spec SpecR SpecF SpecG M_float M_exact M_ieee M_samp M_ntru P_ieee P_fsamp P_gauss P_samp P_prob P_dist P_dist64.
From Verif Require P_exact P_sampz P_iso P_fsafe64.
From Coq Require Import Reals Lra SpecFloat.
Open Scope R_scope.

(** ** ber_exp *)
Fixpoint blaw (k j : nat) : R :=
  match k, j with S O, S O => 1 | S (S k'), S O => 255 / 256 | S (S k' as k1), S j' => blaw k1 j' / 256 | _, _ => 0 end.
Lemma blaw_small k j : (1 <= j < k)%nat -> blaw k j = 255 / 256 ^ j.
Proof.
  revert j. induction k as [|k IH]; intros j Hj; [lia|]. destruct k as [|k]; [lia|]. destruct j as [|j]; [lia|]. destruct j as [|j]; [cbn; field|].
  change (blaw (S (S k)) (S (S j))) with (blaw (S k) (S j) / 256). rewrite IH by lia. cbn [pow]. field. apply pow_nonzero. lra.
Qed.
Lemma blaw_last k : blaw (S k) (S k) = 1 / 256 ^ k.
Proof. induction k as [|k IH]; [cbn; field|]. change (blaw (S (S k)) (S (S k))) with (blaw (S k) (S k) / 256). rewrite IH. cbn [pow]. field. apply pow_nonzero. lra. Qed.
Lemma avg_bytes k z m j : (0 < k <= m)%nat -> (0 <= z)%Z -> avg m (fun s => P_prob.ind (Nat.eqb (snd (ber_loop k z (stream s) 0)) j)) = blaw k j.
Proof.
  revert m j. induction k as [|k IH]; intros m j Hm Hz; [lia|]. destruct m as [|m]; [lia|]. cbn [avg].
  set (d := (z / 256 ^ Z.of_nat k mod 256)%Z). assert (RD := Z.mod_pos_bound (z / 256 ^ Z.of_nat k) 256 ltac:(lia)). fold d in RD.
  assert (DG : Z.land (Z.shiftr z (8 * Z.of_nat k)) 255 = d) by (rewrite Z.shiftr_div_pow2 by lia; rewrite land255, pow8; reflexivity).
  destruct k as [|k].
  - rewrite (rsum_ext 256 _ (fun _ => P_prob.ind (Nat.eqb 1 j))).
    + rewrite rsum_const. replace (INR 256) with 256 by (simpl; lra). destruct j as [|[|j]]; cbn; field.
    + intros b _. rewrite (avg_ext m _ (fun _ => P_prob.ind (Nat.eqb 1 j))); [apply avg_const|]. intros s _ _. cbn [ber_loop]. rewrite Z.mul_0_r. rewrite andb_false_r. reflexivity.
  - assert (E : forall b, (b < 256)%nat -> avg m (fun s => P_prob.ind (Nat.eqb (snd (ber_loop (S (S k)) z (stream (Z.of_nat b :: s)) 0)) j)) =
        P_prob.ind (Nat.eqb 1 j) + (if (Z.of_nat b =? d)%Z then 1 else 0) * (match j with O => 0 | S j' => blaw (S k) j' end - P_prob.ind (Nat.eqb 1 j))).
    { intros b Hb. destruct (Z.eqb_spec (Z.of_nat b) d) as [Eb|Nb].
      - rewrite (avg_ext m _ (fun s => match j with O => 0 | S j' => P_prob.ind (Nat.eqb (snd (ber_loop (S k) z (stream s) 0)) j') end)).
        + destruct j as [|j']; [rewrite avg_const; cbn; ring|]. rewrite IH by lia. ring.
        + intros s _ _. remember (S k) as k1 eqn:Ek. cbn [ber_loop]. rewrite DG. change (stream (Z.of_nat b :: s) 0%nat) with (Z.of_nat b). rewrite Eb, Z.sub_diag. cbn [Z.eqb].
          replace (0 <? 8 * Z.of_nat k1)%Z with true by (symmetry; apply Z.ltb_lt; lia). cbn [andb]. change 1%nat with (1 + 0)%nat. rewrite (ber_loop_shift k1 z _ (stream s) 1 0) by (intros i; reflexivity).
          destruct (ber_loop k1 z (stream s) 0) as [w r]. cbn [snd Nat.add]. destruct j; reflexivity.
      - rewrite (avg_ext m _ (fun _ => P_prob.ind (Nat.eqb 1 j))); [rewrite avg_const; ring|]. intros s _ _. remember (S k) as k1 eqn:Ek. cbn [ber_loop]. rewrite DG. change (stream (Z.of_nat b :: s) 0%nat) with (Z.of_nat b).
        destruct (Z.eqb_spec (Z.of_nat b - d) 0); [lia|]. reflexivity. }
    rewrite (rsum_ext 256 _ _ E), rsum_plus, rsum_const. rewrite (rsum_ext 256 _ (fun b => (match j with O => 0 | S j' => blaw (S k) j' end - P_prob.ind (Nat.eqb 1 j)) * (if (Z.of_nat b =? d)%Z then 1 else 0))) by (intros; ring).
    rewrite rsum_scal. rewrite (rsum_one 256 (Z.to_nat d)); [|lia|intros i Hi Ni; destruct (Z.eqb_spec (Z.of_nat i) d); [lia|reflexivity]].
    rewrite Z2Nat.id, Z.eqb_refl by lia. replace (INR 256) with 256 by (simpl; lra). destruct j as [|[|j]].
    + cbn. field.
    + change (blaw (S (S k)) 1) with (255 / 256). replace (blaw (S k) 0) with 0 by (destruct k; reflexivity). cbn. field.
    + change (blaw (S (S k)) (S (S j))) with (blaw (S k) (S j) / 256). cbn [Nat.eqb P_prob.ind]. field.
Qed.
Lemma ber_exp_bytes (F : fops) x ccs t : ber_threshold F x ccs = Ok t -> (0 <= t)%Z -> forall n, (8 <= n)%nat ->
  (forall j, (1 <= j <= 7)%nat -> prob n (fun w => spent (ber_exp F x ccs (stream w) 0) j) = 255 / 256 ^ j) /\ prob n (fun w => spent (ber_exp F x ccs (stream w) 0) 8) = 1 / 256 ^ 7.
Proof.
  intros E Ht n Hn. assert (K : forall j, prob n (fun w => spent (ber_exp F x ccs (stream w) 0) j) = blaw 8 j).
  { intros j. rewrite prob_avg, <- (avg_bytes 8 t n j) by lia. apply avg_ext. intros s _ _. unfold ber_exp. rewrite E. cbn [bind]. destruct (ber_loop 8 t (stream s) 0) as [w r]. reflexivity. }
  split; [intros j Hj; rewrite K; apply blaw_small; lia|rewrite K; apply (blaw_last 7)].
Qed.

(** ** samplerz *)
Lemma avg_top k z m : (0 < m)%nat -> avg m (fun s => P_prob.ind (let '(w, r) := ber_loop (S k) z (stream s) 0 in (w <? 0)%Z && Nat.eqb r 1)) = IZR (z / 256 ^ Z.of_nat k mod 256) / 256.
Proof.
  intros Hm. destruct m as [|m]; [lia|]. cbn [avg].
  set (d := (z / 256 ^ Z.of_nat k mod 256)%Z). assert (RD := Z.mod_pos_bound (z / 256 ^ Z.of_nat k) 256 ltac:(lia)). fold d in RD.
  assert (DG : Z.land (Z.shiftr z (8 * Z.of_nat k)) 255 = d) by (rewrite Z.shiftr_div_pow2 by lia; rewrite land255, pow8; reflexivity).
  rewrite (rsum_ext 256 _ (fun b => if (Z.of_nat b <? d)%Z then 1 else 0)).
  - f_equal. assert (G : forall n, (n <= 256)%nat -> rsum n (fun b => if (Z.of_nat b <? d)%Z then 1 else 0) = if (Z.of_nat n <=? d)%Z then INR n else IZR d).
    { induction n as [|n IHn]; intros Hn; [destruct (Z.leb_spec (Z.of_nat 0) d); [reflexivity|lia]|]. cbn [rsum]. rewrite IHn, S_INR by lia.
      destruct (Z.leb_spec (Z.of_nat n) d), (Z.leb_spec (Z.of_nat (S n)) d), (Z.ltb_spec (Z.of_nat n) d); try lia; try ring.
      assert (X : INR n = IZR d) by (rewrite INR_IZR_INZ; f_equal; lia). rewrite X. ring. }
    rewrite G by lia. destruct (Z.leb_spec (Z.of_nat 256) d); [lia|reflexivity].
  - intros b Hb. rewrite (avg_ext m _ (fun _ => if (Z.of_nat b <? d)%Z then 1 else 0)); [apply avg_const|]. intros s _ _. cbn [ber_loop]. rewrite DG. change (stream (Z.of_nat b :: s) 0%nat) with (Z.of_nat b).
    destruct (Z.eqb_spec (Z.of_nat b - d) 0) as [Eb|Nb].
    + destruct (Z.ltb_spec (Z.of_nat b) d); [lia|]. cbn [andb]. destruct (0 <? 8 * Z.of_nat k)%Z.
      * change 1%nat with (1 + 0)%nat at 1. rewrite (ber_loop_shift k z _ (stream s) 1 0) by (intros i; reflexivity). destruct (ber_loop k z (stream s) 0) as [w r] eqn:EB.
        destruct (Nat.eqb_spec (1 + r) 1) as [Er|Er]; [|rewrite andb_false_r; reflexivity]. destruct k as [|k]; [cbn [ber_loop] in EB; injection EB as <- <-; reflexivity|].
        exfalso. assert (r = 0)%nat by lia. subst r. clear - EB. revert EB. generalize (stream s). intros g. assert (L : forall k p, (p < snd (ber_loop (S k) z g p))%nat).
        { clear. induction k as [|k IH]; intros p; [cbn; destruct (_ && _); cbn; lia|]. remember (S k) as k1. cbn [ber_loop]. destruct (_ && _); [|cbn; lia]. specialize (IH (S p)). lia. }
        intros EB. specialize (L k 0%nat). rewrite EB in L. cbn in L. lia.
      * replace (Z.of_nat b - d <? 0)%Z with false by (symmetry; apply Z.ltb_ge; lia). reflexivity.
    + cbn [andb]. destruct (Z.ltb_spec (Z.of_nat b) d), (Z.ltb_spec (Z.of_nat b - d) 0); try lia; reflexivity.
Qed.
Section First.
Variables (F : fops) (mu sg sm : D F) (th : nat -> Z -> Z) (fl : Z).
Hypothesis TH : forall z0 b, (z0 < 19)%nat -> (b = 0 \/ b = 1)%Z -> P_sampz.thr F mu sg sm z0 b (th z0 b).
Hypothesis TO : forall z, (-18 <= z <= 19)%Z -> to_i32 F (fadd F (fofz F z) (ffloor F mu)) = Ok (fl + z)%Z.
Lemma first_step k u c s : length u = 9%nat -> bytes u -> length c = 1%nat -> bytes s -> let z0 := zchoice u in let b := (nth 0 c 0 mod 2)%Z in
  spent (samplerz F (S k) mu sg sm (stream (u ++ c ++ s)) 0) 11 = let '(w, r) := ber_loop 8 (th z0 b) (stream s) 0 in (w <? 0)%Z && Nat.eqb r 1.
Proof.
  intros Lu Hu Lc Bs z0 b. unfold samplerz. cbn [samplerz_loop]. unfold base_sampler_rng, rng_read. rewrite map_stream by exact Lu. destruct (zchoice_ok u Lu Hu) as (Hz & E & _). rewrite E. cbn [bind]. fold z0. cbn [Nat.add].
  assert (Ec : stream (u ++ c ++ s) 9 = nth 0 c 0%Z). { unfold stream. rewrite app_nth2 by lia. rewrite Lu, Nat.sub_diag, app_nth1 by lia. reflexivity. }
  rewrite Ec, P_sampz.land1. fold b. assert (Hb : (b = 0 \/ b = 1)%Z) by (unfold b; pose proof (Z.mod_pos_bound (nth 0 c 0%Z) 2); lia).
  assert (T := TH z0 b Hz Hb). unfold P_sampz.thr in T. unfold ber_exp. rewrite T. cbn [bind].
  assert (Sh : forall i, stream (u ++ c ++ s) (10 + i)%nat = stream s i). { intros i. unfold stream. rewrite app_assoc, app_nth2; rewrite app_length, Lu, Lc; [f_equal; lia|lia]. }
  change 10%nat with (10 + 0)%nat. rewrite (ber_loop_shift 8 _ _ (stream s) 10 0 Sh). change (S (10 + 0)) with 11%nat. destruct (ber_loop 8 (th z0 b) (stream s) 0) as [w r]. cbn [bind].
  rewrite <- (P_sampz.signed_eq z0 b Hb). destruct (Z.ltb_spec w 0); cbn [b2z Z.eqb Pos.eqb].
  - rewrite TO by (apply P_sampz.signed_range; exact Hz). cbn [bind spent andb]. destruct (Nat.eqb_spec (10 + r) 11), (Nat.eqb_spec r 1); try lia; reflexivity.
  - cbn [andb]. rewrite <- (Nat.add_0_r (10 + r)). rewrite (loop_shift F k _ _ _ _ _ (stream (skipn r s)) (10 + r) 0).
    + assert (R := P_sampz.samplerz_range F k mu sg sm (stream (skipn r s)) 0). unfold samplerz in R.
      destruct (samplerz_loop F k mu _ _ _ (stream (skipn r s)) 0) as [[v' n]| |]; [|reflexivity|reflexivity]. cbn [spent].
      destruct (R v' n) as (k' & _ & Hk & Hn & _); [|reflexivity|destruct (Nat.eqb_spec (10 + r + n) 11); [lia|reflexivity]].
      intros i. unfold stream. rewrite nth_skip. destruct (Nat.lt_ge_cases (r + i) (length s)) as [L|L]; [unfold bytes in Bs; rewrite Forall_forall in Bs; apply Bs, nth_In, L|rewrite nth_overflow by exact L; unfold byte; lia].
    + intros i. rewrite <- Nat.add_assoc, Sh. unfold stream. symmetry. apply nth_skip.
Qed.
Lemma first_prob k n : (18 <= n)%nat -> prob n (fun w => spent (samplerz F (S k) mu sg sm (stream w) 0) 11) =
  IZR (zsum 19 (fun i => nth i pdt 0 * (th i 0 / 2 ^ 56 + th i 1 / 2 ^ 56))%Z) / (2 ^ 72 * 512).
Proof.
  intros Hn. rewrite prob_avg. replace n with (9 + (1 + (n - 10)))%nat by lia. rewrite avg_split.
  set (t := fun i b => IZR (th i b / 2 ^ 56) / 256).
  assert (P72 : 2 ^ 72 <> 0) by (apply pow_nonzero; lra).
  rewrite (avg_ext 9 _ (fun u => (t (zchoice u) 0%Z + t (zchoice u) 1%Z) / 2)).
  - rewrite (avg_choice (fun i => (t i 0%Z + t i 1%Z) / 2)). rewrite rsum_zsum. match goal with |- _ = ?a / ?b => change (a / b) with (a * / b); rewrite (Rmult_comm a) end. rewrite <- rsum_scal. apply rsum_ext. intros i _. unfold t. rewrite mult_IZR, plus_IZR. generalize dependent (2 ^ 72). intros p Hp. field. exact Hp.
  - intros u Lu Hu. rewrite avg_split. rewrite (avg_ext 1 _ (fun c => t (zchoice u) (nth 0 c 0 mod 2)%Z)).
    + rewrite (avg_parity (fun b => t (zchoice u) b)). reflexivity.
    + intros c Lc Hc. destruct (zchoice_ok u Lu Hu) as (Hz & _ & _). set (b := (nth 0 c 0 mod 2)%Z). assert (Hb : (b = 0 \/ b = 1)%Z) by (unfold b; pose proof (Z.mod_pos_bound (nth 0 c 0%Z) 2); lia).
      assert (R := P_prob.th_range F mu sg sm th TH _ b Hz Hb).
      rewrite (avg_ext (n - 10) _ (fun s => P_prob.ind (let '(w, r) := ber_loop 8 (th (zchoice u) b) (stream s) 0 in (w <? 0)%Z && Nat.eqb r 1))) by (intros s _ Bs; rewrite (first_step k u c s Lu Hu Lc Bs); reflexivity).
      rewrite (avg_top 7) by lia. unfold t. f_equal. f_equal. change (256 ^ Z.of_nat 7)%Z with (2 ^ 56)%Z. apply Z.mod_small. split; [apply Z.div_pos; lia|apply Z.div_lt_upper_bound; lia].
Qed.
End First.
Definition mu_a : spec_float := S754_finite false 5629499534213120 (-56).
Definition mu_b : spec_float := S754_finite false 8725724278030336 (-53).
Definition s_ab : spec_float := S754_finite false 6755399441055744 (-52).
Definition num (mu s sm : spec_float) : Z := zsum 19 (fun i => nth i pdt 0 * (th_64 mu s sm i 0 / 2 ^ 56 + th_64 mu s sm i 1 / 2 ^ 56))%Z.
Lemma num_gap : (2 ^ 72 * 512 <=? 600 * (num mu_b s_ab (sigma_min F64 9) - num mu_a s_ab (sigma_min F64 9)))%Z = true.
Proof. vm_cast_no_check (@eq_refl bool true). Qed.
Lemma in64 mu s : fin64 mu -> 0 <= val64 mu < 1 -> fin64 s -> val64 s = 3 / 2 -> forall k n, (18 <= n)%nat ->
  prob n (fun w => spent (samplerz F64 (S k) mu s (sigma_min F64 9) (stream w) 0) 11) = IZR (num mu s (sigma_min F64 9)) / (2 ^ 72 * 512).
Proof.
  intros Fm Hmu Fs Es k n Hn. destruct (P_iso.smin_lo 9 ltac:(left; reflexivity)) as [Fsm Bsm].
  assert (H0 : (Z.abs (Rfloor (val64 mu)) <= 2147483000)%Z). { destruct (P_exact.Rfloor_spec (val64 mu)) as [Q1 Q2]. set (f := Rfloor (val64 mu)) in *. assert (IZR f < 1 /\ -1 < IZR f) as [Q3 Q4] by lra. apply lt_IZR in Q3, Q4. lia. }
  assert (H2 : val64 (sigma_min F64 9) <= val64 s). { destruct (P_fsafe64.smin64 9 ltac:(left; reflexivity)) as [_ G]. lra. }
  revert Fsm Bsm H2. generalize (sigma_min F64 9). intros sm Fsm Bsm H2.
  pose proof (mu_bound _ H0) as Hm. assert (H1' : 1 / 1000 <= val64 sm) by lra. assert (H3' : 1 <= val64 s <= 18205 / 10000) by lra.
  unfold num. apply (first_prob F64 mu s sm (th_64 mu s sm) (Rfloor (val64 mu))); [| |exact Hn].
  - intros z0 b Hz Hb. destruct (thr_64 mu s sm z0 b Fm Fs Fsm Hm H1' H2 H3' Hz Hb) as (t & E & _). unfold P_sampz.thr, th_64 in *. rewrite E. reflexivity.
  - intros z Hz. apply to_i32_64; assumption.
Qed.
Lemma bytes_gap : exists mu mu' s : spec_float, fin64 mu /\ fin64 mu' /\ fin64 s /\ val64 mu = 5 / 64 /\ val64 mu' = 31 / 32 /\ val64 s = 3 / 2 /\
  forall k n, (1 <= k)%nat -> (18 * k <= n)%nat ->
    prob n (fun w => spent (samplerz F64 k mu s (sigma_min F64 9) (stream w) 0) 11) + 1 / 600 <= prob n (fun w => spent (samplerz F64 k mu' s (sigma_min F64 9) (stream w) 0) 11).
Proof.
  assert (E1 : val64 mu_a = 5 / 64) by (unfold mu_a; rewrite val_neg by reflexivity; change (IZR (2 ^ (- -56))) with 72057594037927936; lra).
  assert (E2 : val64 mu_b = 31 / 32) by (unfold mu_b; rewrite val_neg by reflexivity; change (IZR (2 ^ (- -53))) with 9007199254740992; lra).
  assert (E3 : val64 s_ab = 3 / 2) by (unfold s_ab; rewrite val_neg by reflexivity; change (IZR (2 ^ (- -52))) with 4503599627370496; lra).
  assert (F1 : fin64 mu_a) by (split; [vm_compute; reflexivity|exact I]). assert (F2 : fin64 mu_b) by (split; [vm_compute; reflexivity|exact I]). assert (F3 : fin64 s_ab) by (split; [vm_compute; reflexivity|exact I]).
  exists mu_a, mu_b, s_ab. repeat (split; [assumption|]). intros k n Hk Hn. destruct k as [|k]; [lia|].
  rewrite (in64 mu_a s_ab F1 ltac:(lra) F3 E3 k n ltac:(lia)), (in64 mu_b s_ab F2 ltac:(lra) F3 E3 k n ltac:(lia)).
  assert (G := num_gap). apply Z.leb_le in G. apply IZR_le in G. rewrite !mult_IZR, minus_IZR in G. change (2 ^ 72)%Z with (2 ^ Z.of_nat 72)%Z in G. rewrite <- pow_IZR in G.
  assert (P : 0 < 2 ^ 72) by (apply pow_lt; lra). revert G P. generalize (2 ^ 72) (IZR (num mu_a s_ab (sigma_min F64 9))) (IZR (num mu_b s_ab (sigma_min F64 9))). intros p a b G P.
  apply Rmult_le_reg_r with (p * 512); [lra|]. replace ((a / (p * 512) + 1 / 600) * (p * 512)) with (a + p * 512 / 600) by (field; lra). replace (b / (p * 512) * (p * 512)) with b by (field; lra). lra.
Qed.
Lemma ber_exp_law (F : fops) x ccs : (forall w, ber_exp F x ccs (stream w) 0 <> UB) -> forall n, (8 <= n)%nat ->
  (forall j, (1 <= j <= 7)%nat -> prob n (fun w => spent (ber_exp F x ccs (stream w) 0) j) = 255 / 256 ^ j) /\ prob n (fun w => spent (ber_exp F x ccs (stream w) 0) 8) = 1 / 256 ^ 7.
Proof.
  intros H. assert (H0 := H []). unfold ber_exp in H0. destruct (ber_threshold F x ccs) as [t| |] eqn:E; cbn [bind] in H0; [|destruct (H0 eq_refl)|destruct (P_sampz.threshold_no_fuel F x ccs E)].
  apply (ber_exp_bytes F x ccs t E). apply (P_sampz.threshold_range F x ccs t E).
Qed.
Lemma bytes_example : let x := S754_finite false 4503599627370496 (-53) in let ccs := S754_finite false 6755399441055744 (-53) in
  (forall w, ber_exp F64 x ccs (stream w) 0 <> UB) /\ spent (ber_exp F64 x ccs (stream [116; 7]%Z) 0) 2 = true /\ spent (ber_exp F64 x ccs (stream [117]%Z) 0) 1 = true.
Proof.
  intros x ccs. assert (E : exists t, ber_threshold F64 x ccs = Ok t) by (eexists; vm_compute; reflexivity). destruct E as [t E]. split; [|split; vm_compute; reflexivity].
  intros w. unfold ber_exp. rewrite E. cbn [bind]. destruct (ber_loop 8 t (stream w) 0). discriminate.
Qed.
