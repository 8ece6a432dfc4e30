(** P_rounds.v -- the loop of the end-to-end test of signing, in a buffer of exactly the length of a signature. *)
From Verif Require Import Base Poly Spec SpecR SpecS SpecG SpecJ SpecH SpecM SpecW SpecZ M_ff M_codec M_ntt M_sig M_verify M_float M_exact M_samp M_fft M_ntru M_tree M_test P_codec P_keys P_sig P_comp P_sigx P_prob P_gsum P_jprob P_jgauss P_jkey P_jcoset P_kubx P_hash P_loop P_loopk P_loops P_widek P_sim P_fitm P_fits P_ver P_vers P_simsig P_twist P_res P_oob.
From Verif Require P_key P_decomp P_ff P_ntt P_nttx P_sign P_signx P_signv P_verifyx P_signb P_defx.
From Verif Require P_ntru P_adapt.
From Coq Require Import Reals Lra.

Lemma ext_rounds F ztab mode fuel sfuel lg pk skey msgs x1 x2 g1 g2 r : (forall i, (i < r)%nat -> x1 i = x2 i /\ g1 i = g2 i) ->
  forall sig, test_rounds F ztab mode fuel sfuel lg pk skey msgs x1 g1 r sig = test_rounds F ztab mode fuel sfuel lg pk skey msgs x2 g2 r sig.
Proof.
  induction r as [|r IH]; intros H sig; [reflexivity|]. cbn [test_rounds]. destruct (H r ltac:(lia)) as [-> ->].
  destruct (sign _ _ _ _ _ _ _ _ _ _) as [[b e]| |]; cbn [bind]; [|reflexivity|reflexivity]. destruct (verify _ _ _ _ _ _ _) as [b'| |]; cbn [bind]; [|reflexivity|reflexivity].
  rewrite (IH ltac:(intros i Hi; apply H; lia)). reflexivity.
Qed.

Section Len.
Context (F : fops) (ztab : list (D F * D F)) (lg : nat) (Hlg : falcon_lg lg).
Lemma loop_len fuel sfuel B T t0 t1 smin b2 g : forall pos sig sig' pos', (sig_bytes lg <= length sig)%nat -> sign_loop F ztab fuel sfuel lg B T t0 t1 smin b2 g pos sig = Ok (sig', pos') -> length sig' = length sig.
Proof.
  induction fuel as [|fuel IH]; intros pos sig sig' pos' Ls H; cbn [sign_loop] in H; [discriminate|].
  apply bind_Ok in H. destruct H as [[[z0 z1] p] [_ H]]. apply bind_Ok in H. destruct H as [[s0 s1] [_ H]]. apply bind_Ok in H. destruct H as [n0 [_ H]]. apply bind_Ok in H. destruct H as [n1 [_ H]].
  destruct (fle F _ _); [|exact (IH _ _ _ _ Ls H)].
  apply bind_Ok in H. destruct H as [i [_ H]]. apply bind_Ok in H. destruct H as [s2 [_ H]]. apply bind_Ok in H. destruct H as [[b e] [E H]].
  assert (Le : length e = length sig). { destruct (P_signb.compress_split lg s2 sig b e Hlg Ls E) as (body & Lb & -> & _). rewrite !app_length, firstn_length, skipn_length, Lb. assert (41 <= sig_bytes lg)%nat by (destruct Hlg as [-> | ->]; vm_compute; lia). lia. }
  destruct b; [injection H as <- <-; exact Le|]. rewrite <- Le. eapply IH; [|exact H]. lia.
Qed.
Lemma wrs_len {A} (vs : list A) : forall l o l', wrs l o vs = Ok l' -> length l' = length l.
Proof. induction vs as [|v vs IH]; intros l o l' H; cbn [wrs] in H; [injection H as <-; reflexivity|]. apply bind_Ok in H. destruct H as [l1 [E H]]. rewrite (IH _ _ _ H). exact (P_ntru.wr_len _ _ _ _ E). Qed.
Lemma sign_len fuel sfuel xof skey msg sig rng b e : (sig_bytes lg <= length sig)%nat -> sign F ztab fuel sfuel xof lg skey msg sig rng = Ok (b, e) -> length e = length sig.
Proof.
  intros Ls H. unfold sign in H. apply bind_Ok in H. destruct H as [[d [[f g] F_]] [_ H]]. destruct d; cbn [negb] in H; [|injection H as _ <-; reflexivity].
  apply bind_Ok in H. destruct H as [G_ [_ H]]. apply bind_Ok in H. destruct H as [B [_ H]]. apply bind_Ok in H. destruct H as [T [_ H]]. apply bind_Ok in H. destruct H as [[s p] [E H]]. injection H as _ <-.
  unfold sign_bt, rng_read in E. apply bind_Ok in E. destruct E as [c [_ E]]. apply bind_Ok in E. destruct E as [[t0 t1] [_ E]]. apply bind_Ok in E. destruct E as [[s' p'] [E1 E]].
  apply bind_Ok in E. destruct E as [s2 [E2 E]]. apply bind_Ok in E. destruct E as [s3 [E3 E]]. injection E as <- _.
  rewrite (wrs_len _ _ _ _ E3), (P_ntru.wr_len _ _ _ _ E2). exact (loop_len _ _ _ _ _ _ _ _ _ _ _ _ _ Ls E1).
Qed.
End Len.

Open Scope R_scope.
Section Rounds.
Variables (lg : nat) (Hlg : falcon_lg lg) (pk skey : list Z) (k m n : nat) (mo : ovf).
Notation L := (40 + (136 * k + n))%nat.
Notation one msg sig salt v := (sign RF exact_table m k (fun _ => stream (firstn (136 * k) v)) lg skey msg sig (stream (salt ++ skipn (136 * k) v))).
Notation chk msg v := (verify mo k (fun _ => stream (firstn (136 * k) v)) lg pk msg).
Variable msgs : nat -> list Z.
Notation run r sig v := (test_rounds RF exact_table mo m k lg pk skey msgs (piece_xof k n v) (piece_rng k n v) r sig).
Lemma run_front r sig u w : length u = (r * L)%nat -> run r sig (u ++ w) = run r sig u.
Proof.
  intros Lu. apply ext_rounds. intros i Hi. assert (E : piece k n (u ++ w) i = piece k n u i).
  { unfold piece. rewrite skipn_app, firstn_app, skipn_length, Lu. assert (X : (i * L + L <= r * L)%nat) by nia. replace (L - (r * L - i * L))%nat with 0%nat by lia. rewrite firstn_O, app_nil_r. reflexivity. }
  unfold piece_xof, piece_rng. rewrite E. split; reflexivity.
Qed.
Lemma run_step r sig u sa w : length u = (r * L)%nat -> length sa = 40%nat -> length w = (136 * k + n)%nat ->
  run (S r) sig (u ++ sa ++ w) = bind (one (msgs r) sig sa w) (fun '(b, e) => bind (chk (msgs r) w e) (fun b' => bind (run r e u) (fun b'' => Ok (b && b' && b'')%bool))).
Proof.
  intros Lu Ls Lw. cbn [test_rounds]. assert (E : piece k n (u ++ sa ++ w) r = sa ++ w).
  { unfold piece. rewrite skipn_app, Lu, Nat.sub_diag, skipn_all2 by lia. cbn [skipn app]. apply firstn_all2. rewrite app_length. lia. }
  assert (E1 : piece_xof k n (u ++ sa ++ w) r = (fun _ => stream (firstn (136 * k) w))). { unfold piece_xof. rewrite E, skipn_app, Ls, Nat.sub_diag, skipn_all2 by lia. reflexivity. }
  assert (E2 : piece_rng k n (u ++ sa ++ w) r = stream (sa ++ skipn (136 * k) w)). { unfold piece_rng. rewrite E, firstn_app, Ls, Nat.sub_diag, firstn_O, app_nil_r, firstn_all2 by lia. rewrite skipn_app, Ls, skipn_all2 by lia. cbn [app]. replace (40 + 136 * k - 40)%nat with (136 * k)%nat by lia. reflexivity. }
  rewrite E1, E2. destruct (one (msgs r) sig sa w) as [[b e]| |]; cbn [bind]; [|reflexivity|reflexivity]. destruct (chk (msgs r) w e) as [b'| |]; cbn [bind]; [|reflexivity|reflexivity].
  rewrite run_front by exact Lu. reflexivity.
Qed.
Lemma split_rounds (t : res bool -> bool) r sig : prob (S r * L) (fun v => t (run (S r) sig v)) = avg 40 (fun sa => avg (136 * k + n) (fun w => prob (r * L) (fun u => t (run (S r) sig (u ++ sa ++ w))))).
Proof.
  rewrite prob_avg. replace (S r * L)%nat with (r * L + L)%nat by lia. rewrite avg_split, P_adapt.avg_swap, avg_split. apply avg_ext. intros sa _ _. apply avg_ext. intros w _ _. rewrite prob_avg. reflexivity.
Qed.
Lemma prob_zero n' P : (forall s, length s = n' -> P s = false) -> prob n' P = 0.
Proof. intros H. rewrite prob_avg, <- (avg_const n' 0). apply avg_ext. intros s Hs _. rewrite (H s Hs). reflexivity. Qed.
Lemma prob_pos n' P : 0 <= prob n' P.
Proof. rewrite prob_avg, <- (avg_const n' 0). apply avg_mono. intros s _ _. destruct (P s); cbn; lra. Qed.
Variables p q : R.
Hypothesis H1 : forall msg salt sig, length salt = 40%nat -> bytes salt -> length sig = sig_bytes lg -> p <= prob (136 * k + n) (fun v => signs_outside (one msg sig salt v) (chk msg v)).
Hypothesis H2 : forall msg salt sig, length salt = 40%nat -> bytes salt -> length sig = sig_bytes lg -> q <= prob (136 * k + n) (fun v => signs_valid (one msg sig salt v) (chk msg v)).
Hypotheses (p1 : p <= 1) (q0 : 0 <= q).
Lemma ended_le r : forall sig, length sig = sig_bytes lg -> prob (r * L) (fun v => ended (run r sig v)) <= (1 - p) ^ r.
Proof.
  induction r as [|r IH]; intros sig Ls; [rewrite prob_avg; cbn; lra|]. rewrite (split_rounds ended). rewrite <- (avg_const 40 ((1 - p) ^ S r)). apply avg_mono. intros sa Lsa Bsa.
  apply Rle_trans with (avg (136 * k + n) (fun w => (1 - p) ^ r * (1 + (-1) * P_prob.ind (signs_outside (one (msgs r) sig sa w) (chk (msgs r) w))))).
  - apply avg_mono. intros w Lw _. assert (X := pow_le (1 - p) r ltac:(lra)).
    assert (E : forall u, length u = (r * L)%nat -> ended (run (S r) sig (u ++ sa ++ w)) = match one (msgs r) sig sa w with Ok (_, e) => match chk (msgs r) w e with Ok _ => ended (run r e u) | _ => false end | _ => false end).
    { intros u Lu. rewrite run_step by assumption. destruct (one (msgs r) sig sa w) as [[b e]| |]; cbn [bind]; [|reflexivity|reflexivity]. destruct (chk (msgs r) w e) as [b'| |]; cbn [bind]; [|reflexivity|reflexivity]. destruct (run r e u); reflexivity. }
    destruct (one (msgs r) sig sa w) as [[b e]| |] eqn:Es.
    + destruct (chk (msgs r) w e) as [b'| |] eqn:Ev.
      * assert (Le := sign_len RF exact_table lg Hlg _ _ _ _ _ _ _ _ _ (Nat.eq_le_incl _ _ (eq_sym Ls)) Es). rewrite prob_avg. rewrite (avg_ext _ _ (fun u => P_prob.ind (ended (run r e u)))) by (intros u Lu _; rewrite (E u Lu); reflexivity). rewrite <- prob_avg.
        unfold signs_outside. replace (if b then match chk (msgs r) w e with UB => true | _ => false end else false) with false by (rewrite Ev; destruct b; reflexivity). cbn [P_prob.ind]. assert (Y := IH e ltac:(lia)). lra.
      * rewrite prob_zero by (intros u Lu; rewrite (E u Lu); reflexivity). destruct (signs_outside _ _); cbn [P_prob.ind]; lra.
      * rewrite prob_zero by (intros u Lu; rewrite (E u Lu); reflexivity). destruct (signs_outside _ _); cbn [P_prob.ind]; lra.
    + rewrite prob_zero by (intros u Lu; rewrite (E u Lu); reflexivity). cbn [signs_outside P_prob.ind]; lra.
    + rewrite prob_zero by (intros u Lu; rewrite (E u Lu); reflexivity). cbn [signs_outside P_prob.ind]; lra.
  - rewrite avg_scal, avg_plus, avg_const, avg_scal, <- prob_avg. assert (Y := H1 (msgs r) sa sig Lsa Bsa Ls). assert (X := pow_le (1 - p) r ltac:(lra)). cbn [pow]. rewrite (Rmult_comm (1 - p)). apply Rmult_le_compat_l; lra.
Qed.
Lemma passed_ge r : forall sig, length sig = sig_bytes lg -> q ^ r <= prob (r * L) (fun v => passed (run r sig v)).
Proof.
  induction r as [|r IH]; intros sig Ls; [rewrite prob_avg; cbn; lra|]. rewrite (split_rounds passed). rewrite <- (avg_const 40 (q ^ S r)). apply avg_mono. intros sa Lsa Bsa.
  apply Rle_trans with (avg (136 * k + n) (fun w => q ^ r * P_prob.ind (signs_valid (one (msgs r) sig sa w) (chk (msgs r) w)))).
  - rewrite avg_scal, <- prob_avg. assert (Y := H2 (msgs r) sa sig Lsa Bsa Ls). assert (X := pow_le q r q0). cbn [pow]. rewrite (Rmult_comm q). apply Rmult_le_compat_l; lra.
  - apply avg_mono. intros w Lw _. destruct (signs_valid _ _) eqn:Ev; [|cbn [P_prob.ind]; rewrite Rmult_0_r; apply prob_pos]. cbn [P_prob.ind]. rewrite Rmult_1_r. unfold signs_valid in Ev.
    destruct (one (msgs r) sig sa w) as [[b e]| |] eqn:Es; [|discriminate|discriminate]. destruct b; [|discriminate]. destruct (chk (msgs r) w e) as [b'| |] eqn:Ec; [|discriminate|discriminate]. destruct b'; [|discriminate].
    assert (Le := sign_len RF exact_table lg Hlg _ _ _ _ _ _ _ _ _ (Nat.eq_le_incl _ _ (eq_sym Ls)) Es). eapply Rle_trans; [apply (IH e); lia|]. rewrite !prob_avg. apply Req_le. apply avg_ext. intros u Lu _. rewrite run_step by assumption. rewrite Es. cbn [bind]. rewrite Ec. cbn [bind]. destruct (run r e u) as [b| |]; [destruct b| |]; reflexivity.
Qed.
End Rounds.

Section Union.
Variables (lg : nat) (Hlg : falcon_lg lg) (f g F_ G_ h0 h pk0 pk : list Z).
Hypotheses (HS : sound_key lg f g F_ G_) (Lh : length h0 = (2 ^ lg)%nat) (HK : compute_public_key lg f g h0 = Ok h) (Lpk0 : length pk0 = pkey_len lg) (HE : encode_pkey lg h pk0 = Ok pk).
Variable skey : list Z.
Hypothesis HD : decode_skey lg skey (repeat 0%Z (2 ^ lg)) (repeat 0%Z (2 ^ lg)) (repeat 0%Z (2 ^ lg)) = Ok (true, (f, g, F_)).
Variables (msg salt sig : list Z) (k m n : nat) (mo : ovf).
Hypotheses (Lsa : length salt = 40%nat) (Bsa : bytes salt) (Ls : length sig = sig_bytes lg) (Hk : (512 <= k)%nat) (Hm : (1 <= m)%nat) (Hn : (36 * k * 2 ^ lg * m <= n)%nat).
Lemma either_often : (if Nat.eqb lg 9 then 9995 / 10000 else 903 / 1000) <=
  prob (136 * k + n) (fun v => let xof := fun _ => stream (firstn (136 * k) v) in
    let r := sign RF exact_table m k xof lg skey msg sig (stream (salt ++ skipn (136 * k) v)) in signs_outside r (verify mo k xof lg pk msg) || signs_valid r (verify mo k xof lg pk msg)).
Proof.
  apply Rle_trans with (1 - (981 / 1000) ^ (2 ^ lg) - unfit lg - (bigs lg + tight lg) - (INR (2 * 2 ^ lg) * (2 / 2 ^ 34 + (11 / 12) ^ k) + 16 ^ 2 ^ lg / 8 ^ (68 * k))).
  - assert (A := slack_small lg k Hlg Hk). unfold slack in A. destruct Hlg as [-> | ->]; unfold bigs, tight; cbn [Nat.eqb] in *; lra.
  - apply (sign_test lg Hlg f g F_ G_ h0 h HS Lh HK (fun s => smallv s && ((Spec.tot (snd s) <? body_len lg - 16)%Z || even8 s)) (bigs lg + tight lg)) with (skey := skey) (msg := msg) (salt := salt) (sig := sig) (m := m); try assumption; [|lia|].
    + intros WT TWT L NL DL. rewrite Forall_forall in DL. rewrite (lsum_part smallv). rewrite Rmult_plus_distr_r, Rplus_comm. apply Rplus_le_compat.
      * apply (big_part lg Hlg); [exact TWT|exact NL|]. intros s Hs. apply DL, Hs.
      * apply (tight_mass lg Hlg WT TWT); [apply NoDup_filter; exact NL|]. apply Forall_forall. intros s Hs. apply filter_In in Hs. destruct Hs as [Hs E]. destruct (DL s Hs) as [P N]. split; [exact P|]. rewrite E in N. cbn [andb] in N. apply Bool.orb_false_iff in N. destruct N as [N _]. apply Z.ltb_ge in N. exact N.
    + intros v c e s Lv Bv Eh Es Hs Hn' Eb. cbv zeta. rewrite Es. apply Bool.andb_true_iff in Hn'. destruct Hn' as [N1 N2]. apply Bool.orb_true_iff in N2.
      destruct (sign_exact lg Hlg f g F_ G_ h0 h pk0 pk HS Lh HK Lpk0 HE skey HD msg salt sig k m mo Lsa Bsa Ls v c e s Bv Eh Es Hs N1 Eb) as (V & Be & Le & E0 & L2 & Tt).
      destruct (small_in s N1) as [_ S2].
      assert (D := Z.div_mod (body_len lg - Spec.tot (snd s)) 8 ltac:(lia)).
      destruct (Z.eq_dec ((body_len lg - Spec.tot (snd s)) mod 8) 0) as [M|M].
      * destruct (verify_exact mo k (fun _ : list Z => stream (firstn (136 * k) v)) lg pk msg e s Hlg Be Le E0 Eb L2 (proj2 (Forall_forall _ _) S2)) as [U _]; [lia|exact V|unfold signs_outside; rewrite (U M); reflexivity].
      * assert (N3 : (Spec.tot (snd s) < body_len lg - 16)%Z). { destruct N2 as [N2|N2]; [apply Z.ltb_lt; exact N2|]. exfalso. apply M. apply (levs_padding lg (snd s) Hlg L2). apply Nat.eqb_eq. exact N2. }
        destruct (verify_exact mo k (fun _ : list Z => stream (firstn (136 * k) v)) lg pk msg e s Hlg Be Le E0 Eb L2 (proj2 (Forall_forall _ _) S2)) as [_ U]; [lia|exact V|unfold signs_outside, signs_valid; rewrite (U M); reflexivity].
Qed.
End Union.
Section Reads.
Variables (lg : nat) (Hlg : falcon_lg lg) (pk skey : list Z) (k m n : nat) (mo : ovf) (p t : R).
Notation L := (40 + (136 * k + n))%nat.
Notation one msg sig salt v := (sign RF exact_table m k (fun _ => stream (firstn (136 * k) v)) lg skey msg sig (stream (salt ++ skipn (136 * k) v))).
Notation chk msg v := (verify mo k (fun _ => stream (firstn (136 * k) v)) lg pk msg).
Hypothesis H1 : forall msg salt sig, length salt = 40%nat -> bytes salt -> length sig = sig_bytes lg -> p <= prob (136 * k + n) (fun v => signs_outside (one msg sig salt v) (chk msg v)).
Hypothesis H2 : forall msg salt sig, length salt = 40%nat -> bytes salt -> length sig = sig_bytes lg -> t <= prob (136 * k + n) (fun v => signs_outside (one msg sig salt v) (chk msg v) || signs_valid (one msg sig salt v) (chk msg v)).
Hypotheses (p0 : 0 < p) (pt : p <= t) (t1 : t <= 1).
Variable msgs : nat -> list Z.
Notation run r sig v := (test_rounds RF exact_table mo m k lg pk skey msgs (piece_xof k n v) (piece_rng k n v) r sig).
Notation b r := (p / (1 - (t - p)) * (1 - (t - p) ^ r)).
Lemma b_in r : 0 <= b r <= 1.
Proof.
  assert (X : 0 < p / (1 - (t - p)) <= 1). { split; [apply Rdiv_lt_0_compat; lra|]. apply Rmult_le_reg_r with (1 - (t - p)); [lra|]. unfold Rdiv. rewrite Rmult_assoc, Rinv_l by lra. lra. }
  assert (Y : 0 <= (t - p) ^ r <= 1). { split; [apply pow_le; lra|]. rewrite <- (pow1 r). apply pow_incr. lra. } split; [apply Rmult_le_pos; lra|]. apply Rle_trans with (1 * 1); [apply Rmult_le_compat; lra|lra].
Qed.
Lemma outside_ge r : forall sig, length sig = sig_bytes lg -> b r <= prob (r * L) (fun v => read_outside (run r sig v)).
Proof.
  induction r as [|r IH]; intros sig Ls; [eapply Rle_trans; [|apply prob_pos]; cbn [pow]; lra|]. rewrite (split_rounds lg pk skey k m n mo msgs read_outside). rewrite <- (avg_const 40 (b (S r))). apply avg_mono. intros sa Lsa Bsa. assert (B := b_in r).
  apply Rle_trans with (avg (136 * k + n) (fun w => (1 - b r) * P_prob.ind (signs_outside (one (msgs r) sig sa w) (chk (msgs r) w)) + b r * P_prob.ind (signs_outside (one (msgs r) sig sa w) (chk (msgs r) w) || signs_valid (one (msgs r) sig sa w) (chk (msgs r) w)))).
  - rewrite avg_plus, !avg_scal, <- !prob_avg. assert (Y1 := H1 (msgs r) sa sig Lsa Bsa Ls). assert (Y2 := H2 (msgs r) sa sig Lsa Bsa Ls).
    apply Rle_trans with ((1 - b r) * p + b r * t).
    + apply Req_le. cbn [pow]. field. lra.
    + apply Rplus_le_compat; apply Rmult_le_compat_l; lra.
  - apply avg_mono. intros w Lw _. set (o := signs_outside _ _). set (va := signs_valid _ _). destruct o eqn:Eo; subst o.
    + cbn [orb P_prob.ind]. unfold signs_outside in Eo. destruct (one (msgs r) sig sa w) as [[d e]| |] eqn:Es; [|discriminate|discriminate]. destruct d; [|discriminate]. destruct (chk (msgs r) w e) as [b'| |] eqn:Ec; [discriminate| |discriminate].
      apply Rle_trans with 1; [lra|]. rewrite prob_avg, <- (avg_const (r * L) 1). apply Req_le, avg_ext. intros u Lu _. rewrite run_step by assumption. rewrite Es. cbn [bind]. rewrite Ec. reflexivity.
    + cbn [orb]. destruct va eqn:Ev; subst va; [|cbn [P_prob.ind]; rewrite !Rmult_0_r, Rplus_0_r; apply prob_pos]. cbn [P_prob.ind]. rewrite Rmult_0_r, Rmult_1_r, Rplus_0_l. unfold signs_valid in Ev.
      destruct (one (msgs r) sig sa w) as [[d e]| |] eqn:Es; [|discriminate|discriminate]. destruct d; [|discriminate]. destruct (chk (msgs r) w e) as [b'| |] eqn:Ec; [|discriminate|discriminate]. destruct b'; [|discriminate].
      assert (Le := sign_len RF exact_table lg Hlg _ _ _ _ _ _ _ _ _ (Nat.eq_le_incl _ _ (eq_sym Ls)) Es). eapply Rle_trans; [apply (IH e); lia|]. rewrite !prob_avg. apply Req_le. apply avg_ext. intros u Lu _. rewrite run_step by assumption. rewrite Es. cbn [bind]. rewrite Ec. cbn [bind]. destruct (run r e u) as [c| |]; reflexivity.
Qed.
End Reads.
Theorem test_bounds lg : falcon_lg lg -> forall f g F_ G_ h0 h pk0 pk, sound_key lg f g F_ G_ -> length h0 = (2 ^ lg)%nat -> compute_public_key lg f g h0 = Ok h ->
  length pk0 = pkey_len lg -> encode_pkey lg h pk0 = Ok pk ->
  forall skey, decode_skey lg skey (repeat 0%Z (2 ^ lg)) (repeat 0%Z (2 ^ lg)) (repeat 0%Z (2 ^ lg)) = Ok (true, (f, g, F_)) ->
  forall msgs sig k m n mode, length sig = sig_bytes lg -> (512 <= k)%nat -> (1 <= m)%nat -> (36 * k * 2 ^ lg * m <= n)%nat -> forall r,
    let run := fun v => test_rounds RF exact_table mode m k lg pk skey msgs (piece_xof k n v) (piece_rng k n v) r sig in
    (if Nat.eqb lg 9 then 839 / 1000 else 74 / 100) ^ r <= prob (r * (40 + (136 * k + n))) (fun v => passed (run v)) /\
    prob (r * (40 + (136 * k + n))) (fun v => ended (run v)) <= (if Nat.eqb lg 9 then 881 / 1000 else 894 / 1000) ^ r.
Proof.
  intros Hlg f g F_ G_ h0 h pk0 pk HS Lh HK Lp HE skey HD msgs sig k m n mode Ls Hk Hm Hn r run.
  assert (A1 := fun msg salt sg L1 L2 L3 => inside_often lg Hlg f g F_ G_ h0 h pk0 pk HS Lh HK Lp HE skey HD msg salt sg k m n mode L1 L2 L3 Hk Hm Hn).
  assert (A2 := fun msg salt sg L1 L2 L3 => outside_often lg Hlg f g F_ G_ h0 h pk0 pk HS Lh HK Lp HE skey HD msg salt sg k m n mode L1 L2 L3 Hk Hm Hn).
  replace (if Nat.eqb lg 9 then 881 / 1000 else 894 / 1000) with (1 - (if Nat.eqb lg 9 then 119 / 1000 else 106 / 1000)) by (destruct (Nat.eqb lg 9); lra).
  assert (P1 : (if Nat.eqb lg 9 then 119 / 1000 else 106 / 1000) <= 1) by (destruct (Nat.eqb lg 9); lra). assert (Q0 : 0 <= (if Nat.eqb lg 9 then 839 / 1000 else 74 / 100)) by (destruct (Nat.eqb lg 9); lra).
  split; [eapply passed_ge|eapply ended_le]; eassumption.
Qed.
Lemma pow_1024 x : 0 <= x -> x ^ 7 <= / 2 -> x <= 1 -> x ^ 1024 <= (/ 2) ^ 146.
Proof.
  intros H0 H7 H1. replace 1024%nat with (7 * 146 + 2)%nat by reflexivity. rewrite pow_add, pow_mult. assert (A : 0 <= (x ^ 7) ^ 146) by (apply pow_le, pow_le; exact H0).
  assert (B : (x ^ 7) ^ 146 <= (/ 2) ^ 146) by (apply pow_incr; split; [apply pow_le; exact H0|exact H7]). assert (C : x ^ 2 <= 1) by (rewrite <- (pow1 2); apply pow_incr; lra).
  rewrite <- (Rmult_1_r ((/ 2) ^ 146)). apply Rmult_le_compat; [exact A|apply pow_le; exact H0|exact B|exact C].
Qed.
Lemma half_pow n : (/ 2) ^ (10 + n) <= / 1024.
Proof.
  rewrite pow_add. assert (A : 0 <= (/ 2) ^ n <= 1) by (split; [apply pow_le; lra|rewrite <- (pow1 n); apply pow_incr; lra]). apply Rle_trans with ((/ 2) ^ 10 * 1); [apply Rmult_le_compat_l; [apply pow_le; lra|apply A]|cbn [pow]; lra].
Qed.
Theorem test_1024 lg : falcon_lg lg -> forall f g F_ G_ h0 h pk0 pk, sound_key lg f g F_ G_ -> length h0 = (2 ^ lg)%nat -> compute_public_key lg f g h0 = Ok h ->
  length pk0 = pkey_len lg -> encode_pkey lg h pk0 = Ok pk ->
  forall skey, decode_skey lg skey (repeat 0%Z (2 ^ lg)) (repeat 0%Z (2 ^ lg)) (repeat 0%Z (2 ^ lg)) = Ok (true, (f, g, F_)) ->
  forall msgs sig k m n mode, length sig = sig_bytes lg -> (512 <= k)%nat -> (1 <= m)%nat -> (36 * k * 2 ^ lg * m <= n)%nat ->
    let run := fun v => test_rounds RF exact_table mode m k lg pk skey msgs (piece_xof k n v) (piece_rng k n v) 1024 sig in
    prob (1024 * (40 + (136 * k + n))) (fun v => ended (run v)) <= (/ 2) ^ 146 /\
    (if Nat.eqb lg 9 then 99 / 100 else 52 / 100) <= prob (1024 * (40 + (136 * k + n))) (fun v => read_outside (run v)).
Proof.
  intros Hlg f g F_ G_ h0 h pk0 pk HS Lh HK Lp HE skey HD msgs sig k m n mode Ls Hk Hm Hn.
  intros run. split.
  - eapply Rle_trans; [exact (proj2 (test_bounds lg Hlg f g F_ G_ h0 h pk0 pk HS Lh HK Lp HE skey HD msgs sig k m n mode Ls Hk Hm Hn 1024))|]. apply pow_1024; destruct (Nat.eqb lg 9); lra.
  - assert (A1 := fun msg salt sg L1 L2 L3 => either_often lg Hlg f g F_ G_ h0 h pk0 pk HS Lh HK Lp HE skey HD msg salt sg k m n mode L1 L2 L3 Hk Hm Hn).
    assert (A2 := fun msg salt sg L1 L2 L3 => outside_often lg Hlg f g F_ G_ h0 h pk0 pk HS Lh HK Lp HE skey HD msg salt sg k m n mode L1 L2 L3 Hk Hm Hn). cbv zeta in A1, A2.
    assert (X : (if Nat.eqb lg 9 then 9995 / 10000 else 903 / 1000) - (if Nat.eqb lg 9 then 119 / 1000 else 106 / 1000) <= 881 / 1000) by (destruct (Nat.eqb lg 9); lra).
    assert (X0 : 0 <= (if Nat.eqb lg 9 then 9995 / 10000 else 903 / 1000) - (if Nat.eqb lg 9 then 119 / 1000 else 106 / 1000)) by (destruct (Nat.eqb lg 9); lra).
    eapply Rle_trans; [|apply (outside_ge lg Hlg pk skey k m n mode _ _ A2 A1)]; [|destruct (Nat.eqb lg 9); lra|destruct (Nat.eqb lg 9); lra|destruct (Nat.eqb lg 9); lra|exact Ls].
    assert (X7 : (881 / 1000) ^ 7 <= / 2) by (cbn [pow]; lra). assert (X1 := Rle_trans _ _ _ X (ltac:(lra) : 881 / 1000 <= 1)).
    assert (Y := pow_1024 _ X0 (Rle_trans _ _ _ (pow_incr _ _ 7 (conj X0 X)) X7) X1).
    assert (Y2 := Rle_trans _ _ _ Y (half_pow 136)). clear Y X7.
    revert Y2. generalize (((if Nat.eqb lg 9 then 9995 / 10000 else 903 / 1000) - (if Nat.eqb lg 9 then 119 / 1000 else 106 / 1000)) ^ 1024). intros y Y. clear - Y.
    destruct (Nat.eqb lg 9).
    + apply Rle_trans with (119 / 1000 / (1 - (9995 / 10000 - 119 / 1000)) * (1 - / 1024)); [lra|apply Rmult_le_compat_l; lra].
    + apply Rle_trans with (106 / 1000 / (1 - (903 / 1000 - 106 / 1000)) * (1 - / 1024)); [lra|apply Rmult_le_compat_l; lra].
Qed.
