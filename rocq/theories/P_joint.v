(** P_joint.v -- runs that call samplerz again and again: joint distribution of the samples, for any floating point behaviour. *)
From Verif Require Import Base Spec SpecG M_float M_samp P_codec P_samp P_sampz P_prob.
From Coq Require Import Reals Lra.
Open Scope R_scope.
Notation ind := P_prob.ind.

(** ** one call, followed by something that reads the rest of the bytes *)
Lemma avg_ber2 k z m m0 (A Rj : R) (psi phi : list Z -> R) : (0 < k)%nat -> (0 <= z)%Z -> (k + m0 <= m)%nat -> (forall m', (m0 <= m')%nat -> avg m' psi = A) ->
  (forall m', (m0 <= m')%nat -> avg m' phi = Rj) ->
  avg m (fun s => let '(w, r) := ber_loop k z (stream s) 0 in if (w <? 0)%Z then psi (skipn r s) else phi (skipn r s)) =
  IZR (z mod 256 ^ Z.of_nat k) / 256 ^ k * A + (1 - IZR (z mod 256 ^ Z.of_nat k) / 256 ^ k) * Rj.
Proof.
  revert m. induction k as [|k IH]; [lia|]. intros m _ Hz Hm HA HR. destruct m as [|m]; [lia|]. cbn [avg].
  assert (P : (0 < 256 ^ Z.of_nat k)%Z) by (apply Z.pow_pos_nonneg; lia).
  assert (E : (z mod 256 ^ Z.of_nat (S k) = z / 256 ^ Z.of_nat k mod 256 * 256 ^ Z.of_nat k + z mod 256 ^ Z.of_nat k)%Z).
  { rewrite Nat2Z.inj_succ, Z.pow_succ_r by lia. rewrite (Z.mul_comm 256), Z.rem_mul_r by lia. lia. }
  pose proof (Z.mod_pos_bound (z / 256 ^ Z.of_nat k) 256 ltac:(lia)) as RD. set (d := (z / 256 ^ Z.of_nat k mod 256)%Z) in *.
  set (B := if Nat.eqb k 0 then Rj else IZR (z mod 256 ^ Z.of_nat k) / 256 ^ k * A + (1 - IZR (z mod 256 ^ Z.of_nat k) / 256 ^ k) * Rj).
  rewrite (rsum_ext 256 _ (fun b => if (Z.of_nat b <? d)%Z then A else if (Z.of_nat b =? d)%Z then B else Rj)).
  - assert (G : forall n, (n <= 256)%nat -> rsum n (fun b => if (Z.of_nat b <? d)%Z then A else if (Z.of_nat b =? d)%Z then B else Rj) =
        if (Z.of_nat n <=? d)%Z then INR n * A else IZR d * A + B + (INR n - IZR d - 1) * Rj).
    { induction n as [|n IHn]; intros Hn; [destruct (Z.leb_spec (Z.of_nat 0) d); [cbn; ring|lia]|]. cbn [rsum]. rewrite IHn, S_INR by lia.
      destruct (Z.leb_spec (Z.of_nat n) d), (Z.leb_spec (Z.of_nat (S n)) d), (Z.ltb_spec (Z.of_nat n) d), (Z.eqb_spec (Z.of_nat n) d); try lia; try ring.
      assert (X : INR n = IZR d) by (rewrite INR_IZR_INZ; f_equal; assumption). rewrite X. ring. }
    rewrite G by lia. destruct (Z.leb_spec (Z.of_nat 256) d); [lia|]. replace (INR 256) with 256 by (simpl; lra). rewrite E, plus_IZR, mult_IZR, <- pow_IZR.
    assert (N : 256 ^ k <> 0) by (apply pow_nonzero; lra). unfold B. destruct (Nat.eqb_spec k 0) as [->|Hk]; [change (256 ^ Z.of_nat 0)%Z with 1%Z; rewrite Z.mod_1_r; cbn [pow]; field|]. cbn [pow]. field. exact N.
  - intros b Hb. cbn [ber_loop]. rewrite Z.shiftr_div_pow2 by lia. rewrite land255, pow8. fold d.
    destruct (Z.eqb_spec (Z.of_nat b) d) as [Eb|Nb].
    + destruct (Z.ltb_spec (Z.of_nat b) d); [lia|]. unfold B. destruct (Nat.eqb_spec k 0) as [->|Hk].
      * rewrite (avg_ext m _ phi); [apply HR; lia|]. intros s _ _. change (stream (Z.of_nat b :: s) 0%nat) with (Z.of_nat b). rewrite Eb, Z.sub_diag. reflexivity.
      * rewrite <- (IH m) by (try assumption; lia). apply avg_ext. intros s _ _. change (stream (Z.of_nat b :: s) 0%nat) with (Z.of_nat b). rewrite Eb, Z.sub_diag. cbn [Z.eqb].
        replace (0 <? 8 * Z.of_nat k)%Z with true by (symmetry; apply Z.ltb_lt; lia). cbn [andb]. change 1%nat with (1 + 0)%nat. rewrite (ber_loop_shift k z _ (stream s) 1 0) by (intros i; reflexivity).
        destruct (ber_loop k z (stream s) 0) as [w r]. reflexivity.
    + rewrite (avg_ext m _ (fun s => if (Z.of_nat b <? d)%Z then psi s else phi s)).
      * destruct (Z.ltb_spec (Z.of_nat b) d); [apply HA; lia|apply HR; lia].
      * intros s _ _. change (stream (Z.of_nat b :: s) 0%nat) with (Z.of_nat b). destruct (Z.eqb_spec (Z.of_nat b - d) 0); [lia|]. cbn [andb skipn].
        destruct (Z.ltb_spec (Z.of_nat b - d) 0), (Z.ltb_spec (Z.of_nat b) d); try lia; reflexivity.
Qed.

Section Cont.
Variable F : fops.
Variables mu sg sm : D F.
(** the value v is returned, and f of the bytes that follow *)
Definition cont (k : nat) (v : Z) (f : list Z -> R) (s : list Z) : R :=
  match samplerz F k mu sg sm (stream s) 0 with Ok (v', p) => if (v' =? v)%Z then f (skipn p s) else 0 | _ => 0 end.
Variable th : nat -> Z -> Z.
Variable fl : Z.
Hypothesis TH : forall z0 b, (z0 < 19)%nat -> (b = 0 \/ b = 1)%Z -> thr F mu sg sm z0 b (th z0 b).
Hypothesis TO : forall z, (-18 <= z <= 19)%Z -> to_i32 F (fadd F (fofz F z) (ffloor F mu)) = Ok (fl + z)%Z.
Lemma skipn_10 (u c s : list Z) r : length u = 9%nat -> length c = 1%nat -> skipn (10 + r) (u ++ c ++ s) = skipn r s.
Proof. intros Lu Lc. rewrite app_assoc, skipn_app. rewrite skipn_all2 by (rewrite app_length; lia). rewrite app_length, Lu, Lc. cbn [app]. f_equal. lia. Qed.
Lemma skipn_skipn_add {A} (l : list A) a b : skipn (a + b) l = skipn b (skipn a l).
Proof. revert l. induction a as [|a IH]; intros [|x l]; cbn [Nat.add skipn]; try reflexivity; [destruct b; reflexivity|]. apply IH. Qed.
Lemma cont_step k v f u c s : length u = 9%nat -> bytes u -> length c = 1%nat -> let z0 := zchoice u in let b := (nth 0 c 0 mod 2)%Z in
  cont (S k) v f (u ++ c ++ s) = let '(w, r) := ber_loop 8 (th z0 b) (stream s) 0 in if (w <? 0)%Z then (if (fl + zsigned z0 b =? v)%Z then f (skipn r s) else 0) else cont k v f (skipn r s).
Proof.
  intros Lu Hu Lc z0 b. unfold cont, samplerz. cbn [samplerz_loop]. unfold base_sampler_rng, rng_read. rewrite map_stream by exact Lu. destruct (zchoice_ok u Lu Hu) as (Hz & E & _). rewrite E. cbn [bind]. fold z0. cbn [Nat.add].
  assert (Ec : stream (u ++ c ++ s) 9 = nth 0 c 0%Z). { unfold stream. rewrite app_nth2 by lia. rewrite Lu, Nat.sub_diag, app_nth1 by lia. reflexivity. }
  rewrite Ec, land1. fold b. assert (Hb : (b = 0 \/ b = 1)%Z) by (unfold b; pose proof (Z.mod_pos_bound (nth 0 c 0%Z) 2); lia).
  assert (T := TH z0 b Hz Hb). unfold thr in T. unfold ber_exp. rewrite T. cbn [bind].
  assert (Sh : forall i, stream (u ++ c ++ s) (10 + i)%nat = stream s i). { intros i. unfold stream. rewrite app_assoc, app_nth2; rewrite app_length, Lu, Lc; [f_equal; lia|lia]. }
  change 10%nat with (10 + 0)%nat. rewrite (ber_loop_shift 8 _ _ (stream s) 10 0 Sh). destruct (ber_loop 8 (th z0 b) (stream s) 0) as [w r]. cbn [bind].
  rewrite <- (signed_eq z0 b Hb). destruct (Z.ltb_spec w 0); cbn [b2z Z.eqb Pos.eqb].
  - rewrite TO by (apply signed_range; exact Hz). cbn [bind]. rewrite skipn_10 by assumption. reflexivity.
  - rewrite <- (Nat.add_0_r (10 + r)). rewrite (loop_shift F k _ _ _ _ _ (stream (skipn r s)) (10 + r) 0).
    + destruct (samplerz_loop F k mu _ _ _ (stream (skipn r s)) 0) as [[v' n]| |]; try reflexivity. rewrite <- Nat.add_assoc, skipn_10, skipn_skipn_add by assumption. reflexivity.
    + intros i. rewrite <- Nat.add_assoc, Sh. unfold stream. symmetry. apply nth_skip.
Qed.
Lemma cont_prob k v f c m n : (forall n', (m <= n')%nat -> avg n' f = c) -> (18 * k + m <= n)%nat -> avg n (cont k v f) = c * (pv th fl v * rsum k (fun j => (1 - pa th) ^ j)).
Proof.
  intros Hf. revert n. induction k as [|k IH]; intros n Hn; [cbn [rsum]; rewrite !Rmult_0_r; exact (avg_const n 0)|].
  replace n with (9 + (1 + (n - 10)))%nat by lia. rewrite avg_split.
  set (Ak := c * (pv th fl v * rsum k (fun j => (1 - pa th) ^ j))) in *.
  set (t := fun i b => IZR (th i b) / 2 ^ 64). set (e := fun i b => c * ind (fl + zsigned i b =? v)%Z).
  rewrite (avg_ext 9 _ (fun u => (t (zchoice u) 0%Z * e (zchoice u) 0%Z + (1 - t (zchoice u) 0%Z) * Ak + (t (zchoice u) 1%Z * e (zchoice u) 1%Z + (1 - t (zchoice u) 1%Z) * Ak)) / 2)).
  - rewrite (avg_choice (fun i => (t i 0%Z * e i 0%Z + (1 - t i 0%Z) * Ak + (t i 1%Z * e i 1%Z + (1 - t i 1%Z) * Ak)) / 2)).
    assert (E1 : rsum 19 (fun i => IZR (nth i pdt 0%Z) / 2 ^ 72 * ((t i 0%Z * e i 0%Z + (1 - t i 0%Z) * Ak + (t i 1%Z * e i 1%Z + (1 - t i 1%Z) * Ak)) / 2)) = c * pv th fl v + (1 - pa th) * Ak).
    { unfold pv, pa. assert (U : rsum 19 (fun i => IZR (nth i pdt 0%Z) / 2 ^ 72) = 1). { rewrite (rsum_ext 19 _ (fun i => / 2 ^ 72 * IZR (nth i pdt 0%Z))) by (intros; unfold Rdiv; ring). rewrite rsum_scal, <- rsum_zsum. replace (zsum 19 (fun i => nth i pdt 0%Z)) with (2 ^ Z.of_nat 72)%Z by reflexivity. rewrite <- (pow_IZR 2 72). apply Rinv_l. apply pow_nonzero. lra. }
      rewrite (rsum_ext 19 _ (fun i => c * (IZR (nth i pdt 0%Z) / 2 ^ 72 * ((IZR (th i 0) / 2 ^ 64 * ind (fl + zsigned i 0 =? v)%Z + IZR (th i 1) / 2 ^ 64 * ind (fl + zsigned i 1 =? v)%Z) / 2)) +
        (Ak * (IZR (nth i pdt 0%Z) / 2 ^ 72) + (- Ak) * (IZR (nth i pdt 0%Z) / 2 ^ 72 * ((IZR (th i 0) / 2 ^ 64 + IZR (th i 1) / 2 ^ 64) / 2))))) by (intros i _; unfold t, e; field).
      rewrite rsum_plus, rsum_plus, !rsum_scal, U. ring. }
    rewrite E1. cbn [rsum]. assert (E2 : forall m, rsum (S m) (fun j => (1 - pa th) ^ j) = 1 + (1 - pa th) * rsum m (fun j => (1 - pa th) ^ j)). { induction m0 as [|m0 IHm]; [cbn; ring|]. cbn [rsum pow] in *. lra. }
    assert (E3 := E2 k). cbn [rsum] in E3. rewrite E3. unfold Ak. ring.
  - intros u Lu Hu. rewrite avg_split.
    rewrite (avg_ext 1 _ (fun c => t (zchoice u) (nth 0 c 0 mod 2)%Z * e (zchoice u) (nth 0 c 0 mod 2)%Z + (1 - t (zchoice u) (nth 0 c 0 mod 2)%Z) * Ak)).
    + rewrite (avg_parity (fun b => t (zchoice u) b * e (zchoice u) b + (1 - t (zchoice u) b) * Ak)). reflexivity.
    + intros c' Lc Hc. destruct (zchoice_ok u Lu Hu) as (Hz & _ & _). set (b := (nth 0 c' 0 mod 2)%Z). assert (Hb : (b = 0 \/ b = 1)%Z) by (unfold b; pose proof (Z.mod_pos_bound (nth 0 c' 0%Z) 2); lia).
      assert (R := th_range F mu sg sm th TH _ b Hz Hb).
      rewrite (avg_ext (n - 10) _ (fun s => let '(w, r) := ber_loop 8 (th (zchoice u) b) (stream s) 0 in if (w <? 0)%Z then (fun s => ind (fl + zsigned (zchoice u) b =? v)%Z * f s) (skipn r s) else cont k v f (skipn r s))).
      * rewrite (avg_ber2 8 (th (zchoice u) b) (n - 10) (18 * k + m) (e (zchoice u) b) Ak (fun s => ind (fl + zsigned (zchoice u) b =? v)%Z * f s) (cont k v f)); try lia; [| |exact IH].
        -- change (256 ^ Z.of_nat 8)%Z with (2 ^ 64)%Z. rewrite Z.mod_small by exact R. replace (256 ^ 8) with (2 ^ 64) by (simpl; lra). reflexivity.
        -- intros m' Hm'. rewrite avg_scal, Hf by lia. unfold e. ring.
      * intros s _ _. rewrite (cont_step k v f u c' s Lu Hu Lc). fold b. destruct (ber_loop 8 (th (zchoice u) b) (stream s) 0) as [w r]. destruct (w <? 0)%Z; [|reflexivity]. destruct (_ =? v)%Z; cbn [ind]; ring.
Qed.
End Cont.
