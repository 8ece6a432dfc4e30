(** P_play.v -- a forger, after requests for hashes and signatures, finds short vectors of the public lattice. *)
From Verif Require Import Base Spec SpecT SpecU SpecV SpecX SpecR SpecS SpecG SpecJ SpecH SpecM M_ff M_codec M_ntt M_sig M_verify M_float M_exact M_samp M_fft M_ntru M_tree P_prob P_gsum P_jprob P_jgauss P_jkey P_jcoset P_kubx P_widek P_sim P_fitm P_fits P_vers P_simsig P_loopk P_adapt P_rom P_solve P_guess P_coll.
From Verif Require P_genlaw P_key P_live P_verifyx P_decomp P_hash.
From Coq Require Import Lra.
Open Scope R_scope.

Lemma lookup_in t a : match lookup t a with Some _ => In a (map fst t) | None => ~ In a (map fst t) end.
Proof.
  induction t as [|[b v] t IH]; [intros []|]. cbn [lookup map fst]. destruct (list_eq_dec Z.eq_dec a b) as [->|N]; [left; reflexivity|]. destruct (lookup t a); [right; exact IH|]. intros [E|E]; [congruence|exact (IH E)].
Qed.
Lemma room2 d r a : 0 <= d -> 0 <= INR r * (d + INR (a + r) * / 256 ^ 40) /\ d + INR a * / 256 ^ 40 + INR r * (d + INR (S a + r) * / 256 ^ 40) <= INR (S r) * (d + INR (a + S r) * / 256 ^ 40).
Proof.
  intros d0. assert (e0 : 0 < / 256 ^ 40) by (apply Rinv_0_lt_compat, pow_lt; lra). set (e := / 256 ^ 40) in *. clearbody e. assert (r0 := pos_INR r). assert (a0 := pos_INR a). split.
  - apply Rmult_le_pos; [exact r0|]. assert (0 <= INR (a + r) * e) by (apply Rmult_le_pos; [apply pos_INR|lra]). lra.
  - rewrite !plus_INR, !S_INR. assert (0 <= INR r * e) by (apply Rmult_le_pos; lra).
    replace ((INR r + 1) * (d + (INR a + (INR r + 1)) * e)) with (d + INR a * e + INR r * (d + (INR a + 1 + INR r) * e) + (INR r * e + e)) by ring. lra.
Qed.
Lemma tau_slack lg k : (981 / 1000) ^ 2 ^ lg <= slack lg k.
Proof.
  unfold slack. assert (0 <= unfit lg) by (unfold unfit; destruct (Nat.eqb lg 9); lra).
  assert (0 <= INR (2 * 2 ^ lg) * (2 / 2 ^ 34 + (11 / 12) ^ k)). { apply Rmult_le_pos; [apply pos_INR|]. assert (0 <= (11 / 12) ^ k) by (apply pow_le; lra). assert (0 < 2 / 2 ^ 34) by (apply Rdiv_lt_0_compat; [lra|apply pow_lt; lra]). lra. }
  assert (0 < 16 ^ 2 ^ lg / 8 ^ (68 * k)) by (apply Rdiv_lt_0_compat; apply pow_lt; lra). lra.
Qed.

Section Play.
Variables (lg : nat) (Hlg : falcon_lg lg) (h : list Z) (WT : R) (WT0 : 0 < WT) (TWT : total (pairN lg) (fun s => wts lg s) WT).
Variables (A : view -> request) (k : nat).
Variables (f g F_ G_ h0 : list Z).
Hypotheses (HS : sound_key lg f g F_ G_) (Lh : length h0 = (2 ^ lg)%nat) (HK : compute_public_key lg f g h0 = Ok h).
Variable skey : list Z.
Hypothesis HD : decode_skey lg skey (repeat 0%Z (2 ^ lg)) (repeat 0%Z (2 ^ lg)) (repeat 0%Z (2 ^ lg)) = Ok (true, (f, g, F_)).
Variables (m n : nat).
Hypotheses (Hk : (512 <= k)%nat) (Hm : (1 <= m)%nat) (Hn : (36 * k * 2 ^ lg * m <= n)%nat).
Hypothesis HA : forall seen, match A seen with ask_hash _ _ => True | ask_sign _ sig => bytes sig /\ (sig_bytes lg + 2 <= length sig)%nat end.
Notation dd := (slack lg k).
Notation L := (136 * k + n)%nat.
Notation LL := (40 + (136 * k + n))%nat.
Notation z0 := (repeat 0%Z (2 ^ lg)).
Notation ee := (/ 256 ^ 40).
Notation pl T := (play lg skey k m n A T).

(** one hash, and a continuation that may look at fresh bytes *)
Lemma hash_near M (cont : list Z -> list Z -> bool) (y : vec -> R) x E : (forall s, Rabs (prob M (fun v => cont v (point_of lg h s)) - y s) <= E) -> total (pairN lg) (fun s => wts lg s / WT * y s) x ->
  Rabs (avg M (fun v => avg (136 * k) (fun u => match hashb lg k u with Ok c => P_prob.ind (cont v c) | _ => 0 end)) - x) <= 2 * dd + E.
Proof.
  intros N Tx. set (salt := repeat 0%Z 40). set (sig := repeat 0%Z (sig_bytes lg + 2)). assert (BR : forall j, bytes (repeat 0%Z j)) by (intros j; apply Forall_forall; intros a Ha; apply repeat_spec in Ha; subst a; unfold byte; lia).
  assert (Lsa : length salt = 40%nat) by apply repeat_length. assert (Lsg : (sig_bytes lg + 2 <= length sig)%nat) by (unfold sig; rewrite repeat_length; lia).
  assert (ST := step_near lg Hlg h WT WT0 TWT k f g F_ G_ h0 HS Lh HK skey HD m n Hm Hn salt [] sig M (fun v c _ => cont v c) y x E Lsa (BR 40%nat) (BR _) Lsg N Tx).
  assert (T1 : total (fun s : vec => pairN lg s /\ true = true) (fun s => wts lg s) WT) by (apply (total_iff (pairN lg)); [intros s; tauto|exact TWT]).
  assert (SN := sees_near lg Hlg h salt sig Lsa (BR 40%nat) (BR _) Lsg WT WT0 TWT f g F_ G_ h0 HS Lh HK skey HD [] k m n Hm Hn (fun _ _ => true) WT T1). cbv zeta in SN, ST.
  set (rs := fun D w => sees D (hash_to_point k (fun _ : list Z => stream (firstn (136 * k) w)) lg salt [] z0) (sign RF exact_table m k (fun _ : list Z => stream (firstn (136 * k) w)) lg skey [] sig (stream (salt ++ skipn (136 * k) w)))) in *.
  assert (E1 : WT / WT = 1) by (field; lra). rewrite E1 in SN. assert (P1 : 1 - prob L (fun w => rs (fun _ _ => true) w) <= dd) by (rewrite Rabs_minus_sym in SN; exact (Rle_trans _ _ _ (Rle_abs _) SN)).
  assert (DV : forall v, Rabs (avg (136 * k) (fun u => match hashb lg k u with Ok c => P_prob.ind (cont v c) | _ => 0 end) - prob L (fun w => rs (fun c _ => cont v c) w)) <= dd).
  { intros v. assert (EQ : avg (136 * k) (fun u => match hashb lg k u with Ok c => P_prob.ind (cont v c) | _ => 0 end) = avg L (fun w => match hashb lg k (firstn (136 * k) w) with Ok c => P_prob.ind (cont v c) | _ => 0 end)).
    { rewrite avg_split. apply avg_ext. intros u Lu _. etransitivity; [symmetry; apply (avg_const n)|]. apply avg_ext. intros w _ _. rewrite (firstn_app (136 * k) u), Lu, Nat.sub_diag, firstn_O, app_nil_r, (firstn_all2 u) by lia. reflexivity. }
    rewrite EQ, prob_avg. rewrite prob_avg in P1. apply Rle_trans with (1 - avg L (fun w => P_prob.ind (rs (fun _ _ => true) w))); [|exact P1].
    rewrite <- (avg_const L 1) at 1. replace (avg L (fun _ => 1) - avg L (fun w => P_prob.ind (rs (fun _ _ => true) w))) with (avg L (fun w => 1 + (-1) * P_prob.ind (rs (fun _ _ => true) w))) by (rewrite avg_plus, avg_scal; ring).
    apply avg_tri. intros w _ _. unfold rs. change (hash_to_point k (fun _ => stream (firstn (136 * k) w)) lg salt [] z0) with (hashb lg k (firstn (136 * k) w)). unfold sees.
    destruct (hashb lg k (firstn (136 * k) w)) as [c| |]; [|cbn; rewrite Rminus_diag_eq, Rabs_R0 by reflexivity; lra|cbn; rewrite Rminus_diag_eq, Rabs_R0 by reflexivity; lra].
    assert (Q := ind01 (cont v c)). destruct (sign RF _ _ _ _ _ _ _ _ _) as [[[|] e]| |]; cbn [P_prob.ind] in *; apply Rabs_le; lra. }
  replace (avg M (fun v => avg (136 * k) (fun u => match hashb lg k u with Ok c => P_prob.ind (cont v c) | _ => 0 end)) - x) with
    ((avg M (fun v => avg (136 * k) (fun u => match hashb lg k u with Ok c => P_prob.ind (cont v c) | _ => 0 end)) - avg M (fun v => prob L (fun w => rs (fun c _ => cont v c) w))) + (avg M (fun v => prob L (fun w => rs (fun c _ => cont v c) w)) - x)) by ring.
  eapply Rle_trans; [apply Rabs_triang|]. replace (2 * dd + E) with (dd + (dd + E)) by ring. apply Rplus_le_compat; [|exact ST].
  eapply Rle_trans; [apply (avg_tri M _ _ (fun _ => dd)); intros v _ _; apply DV|]. rewrite avg_const. apply Rle_refl.
Qed.

Lemma play_step T r t seen sa u w v : length sa = 40%nat -> length u = (136 * k)%nat -> length w = n ->
  pl T (S r) t seen (sa ++ u ++ w ++ v) =
    match A seen with
    | ask_hash salt msg => match lookup t (salt ++ msg) with
        | Some _ => pl T r t (([], []) :: seen) v
        | None => match hashb lg k u with Ok c => pl T r ((salt ++ msg, u) :: t) ((c, []) :: seen) v | _ => false end
        end
    | ask_sign msg sig => sees (fun c e => pl T r ((sa ++ msg, known t (sa ++ msg) u) :: t) ((c, e) :: seen) v) (hashb lg k (known t (sa ++ msg) u)) (sign RF exact_table m k (fun _ => stream (known t (sa ++ msg) u)) lg skey msg sig (stream (sa ++ w)))
    end.
Proof.
  intros La Lu Lw. cbn [play]. rewrite (firstn_app 40), La, Nat.sub_diag, firstn_O, app_nil_r, (firstn_all2 sa) by lia. rewrite (skipn_app 40), La, Nat.sub_diag, (skipn_all2 sa) by lia. rewrite skipn_O. cbn [app].
  rewrite (firstn_app (136 * k) u), Lu, Nat.sub_diag, firstn_O, app_nil_r, (firstn_all2 u) by lia. rewrite (skipn_app (136 * k) u), Lu, Nat.sub_diag, (skipn_all2 u) by lia. rewrite skipn_O. cbn [app].
  rewrite (firstn_app n w), Lw, Nat.sub_diag, firstn_O, app_nil_r, (firstn_all2 w) by lia.
  assert (ER : skipn L (u ++ w ++ v) = v). { rewrite app_assoc, skipn_app, app_length, Lu, Lw, Nat.sub_diag, skipn_all2 by (rewrite app_length; lia). reflexivity. } rewrite ER.
  cbv zeta. destruct (A seen) as [salt msg|msg sig].
  - change (hash_to_point k (fun a => stream (known t a u)) lg salt msg z0) with (hashb lg k (known t (salt ++ msg) u)). unfold known at 1. destruct (lookup t (salt ++ msg)); reflexivity.
  - change (hash_to_point k (fun a => stream (known t a u)) lg sa msg z0) with (hashb lg k (known t (sa ++ msg) u)). f_equal. apply sign_table; [exact La|]. reflexivity.
Qed.
Lemma play_avg T r t seen : prob (S r * LL) (pl T (S r) t seen) = avg 40 (fun sa => avg (136 * k) (fun u => avg n (fun w => avg (r * LL) (fun v => P_prob.ind (pl T (S r) t seen (sa ++ u ++ w ++ v)))))).
Proof.
  rewrite prob_avg. replace (S r * LL)%nat with (40 + (136 * k + (n + r * LL)))%nat by lia. rewrite avg_split. apply avg_ext. intros sa _ _. rewrite avg_split. apply avg_ext. intros u _ _. rewrite avg_split. reflexivity.
Qed.

(** ** tests of the view *)
Variable D : view -> bool.
Notation gm := (pl (fun _ => D)).
Lemma play_twin r : forall t t' seen v, Forall2 (twin lg k) t t' -> length v = (r * LL)%nat -> gm r t seen v = gm r t' seen v.
Proof.
  induction r as [|r IH]; intros t t' seen v F Lv; [reflexivity|]. destruct (P_rom.cut lg k h0 Lh m n Hk Hm Hn r v Lv) as (sa & u & w & v' & -> & La & Lu & Lw & Lv'). rewrite !play_step by assumption.
  assert (K := fun a => twin_known lg k t t' a u F). destruct (A seen) as [salt msg|msg sig].
  - assert (X := twin_lookup lg k t t' (salt ++ msg) F). destruct (lookup t (salt ++ msg)), (lookup t' (salt ++ msg)); try contradiction; [apply IH; assumption|].
    destruct (hashb lg k u); [|reflexivity|reflexivity]. apply IH; [|exact Lv']. constructor; [split; reflexivity|exact F].
  - rewrite <- K. assert (ES : sign RF exact_table m k (fun _ => stream (known t (sa ++ msg) u)) lg skey msg sig (stream (sa ++ w)) = sign RF exact_table m k (fun _ => stream (known t' (sa ++ msg) u)) lg skey msg sig (stream (sa ++ w))).
    { apply sign_table; [exact La|]. exact (K (sa ++ msg)). }
    rewrite <- ES. unfold sees. destruct (hashb lg k (known t (sa ++ msg) u)); [|reflexivity|reflexivity]. destruct (sign _ _ _ _ _ _ _ _ _ _) as [[[|] e]| |]; try reflexivity. apply IH; [constructor; [split; [reflexivity|apply K]|exact F]|exact Lv'].
Qed.
Lemma play_near r : forall t seen drawn x, solver lg h WT A (fun sn _ => D sn) r (map fst t) seen drawn x -> Rabs (prob (r * LL) (gm r t seen) - x) <= INR r * (2 * dd + INR (length t + r) * ee).
Proof.
  assert (d0 := slack_pos lg k). assert (d2 : 0 <= 2 * dd) by lra.
  induction r as [|r IH]; intros t seen drawn x Hx.
  - cbn [solver] in Hx. subst x. rewrite Nat.mul_0_l, prob_avg. cbn [avg play INR]. rewrite Rmult_0_l. unfold P_prob.ind. rewrite Rminus_diag_eq by reflexivity. rewrite Rabs_R0. lra.
  - destruct (room2 (2 * dd) r (length t) d2) as [R0 RM]. assert (R1 := proj1 (room2 (2 * dd) r (S (length t)) d2)). assert (te : 0 <= INR (length t) * ee) by (apply Rmult_le_pos; [apply pos_INR|]; left; apply Rinv_0_lt_compat, pow_lt; lra).
    cbn [solver] in Hx. assert (HA' := HA seen). rewrite play_avg. destruct (A seen) as [salt msg|msg sig] eqn:EA.
    + (* a hash *)
      assert (X := lookup_in t (salt ++ msg)). destruct (lookup t (salt ++ msg)) as [b|] eqn:Et; destruct (in_dec (list_eq_dec Z.eq_dec) (salt ++ msg) (map fst t)) as [Ip|Ip]; try contradiction.
      * rewrite (avg_ext 40 _ (fun _ => prob (r * LL) (gm r t (([], []) :: seen)))).
        2:{ intros sa La _. rewrite (avg_ext (136 * k) _ (fun _ => prob (r * LL) (gm r t (([], []) :: seen)))); [apply avg_const|]. intros u Lu _.
            rewrite (avg_ext n _ (fun _ => prob (r * LL) (gm r t (([], []) :: seen)))); [apply avg_const|]. intros w Lw _. rewrite prob_avg. apply avg_ext. intros v Lv _.
            rewrite play_step by assumption. rewrite EA, Et. reflexivity. }
        rewrite avg_const. eapply Rle_trans; [exact (IH t _ _ _ Hx)|].
        assert (INR (length t + r) * ee <= INR (S (length t) + r) * ee) by (apply Rmult_le_compat_r; [left; apply Rinv_0_lt_compat, pow_lt; lra|apply le_INR; lia]).
        assert (INR r * (2 * dd + INR (length t + r) * ee) <= INR r * (2 * dd + INR (S (length t) + r) * ee)) by (apply Rmult_le_compat_l; [apply pos_INR|lra]). lra.
      * destruct Hx as (y & Hy & Ty). set (cont := fun v c => gm r ((salt ++ msg, unhash c) :: t) ((c, []) :: seen) v).
        rewrite (avg_ext 40 _ (fun _ => avg (r * LL) (fun v => avg (136 * k) (fun u => match hashb lg k u with Ok c => P_prob.ind (cont v c) | _ => 0 end)))).
        2:{ intros sa La _. etransitivity; [|apply avg_swap]. apply avg_ext. intros u Lu Bu. rewrite (avg_ext n _ (fun _ => avg (r * LL) (fun v => match hashb lg k u with Ok c => P_prob.ind (cont v c) | _ => 0 end))); [apply avg_const|]. intros w Lw _.
            apply avg_ext. intros v Lv _. rewrite play_step by assumption. rewrite EA, Et. destruct (hashb lg k u) as [c| |] eqn:EU; [|reflexivity|reflexivity]. f_equal. unfold cont. destruct (hashb_facts lg k u c Bu EU) as [Lc Cc].
            apply play_twin; [|exact Lv]. constructor; [|apply (twin_refl lg k)]. split; [reflexivity|]. cbn [snd]. rewrite EU, (hashb_unhash lg k c Hlg Hk Lc Cc). reflexivity. }
        rewrite avg_const. eapply Rle_trans; [apply (hash_near (r * LL) cont y x (INR r * (2 * dd + INR (S (length t) + r) * ee))); [|exact Ty]|lra].
        intros s. unfold cont. exact (IH ((salt ++ msg, unhash (point_of lg h s)) :: t) _ _ _ (Hy s)).
    + (* a signature *)
      destruct HA' as [Bsg Ls]. destruct Hx as (z & Hz & EX). rewrite mean_avg in EX. subst x.
      eapply Rle_trans; [apply (avg_tri 40 _ z (fun sa => P_prob.ind (found t (sa ++ msg)) + (dd + INR r * (2 * dd + INR (S (length t) + r) * ee))))|].
      2:{ rewrite avg_plus, avg_const. assert (Q := found_rare t msg). lra. }
      intros sa La Ba. destruct (Hz sa) as (y & Hy & Ty). destruct (found t (sa ++ msg)) eqn:EF; unfold found in EF.
      * cbn [P_prob.ind]. assert (Y01 : forall s, 0 <= y s <= 1) by (intros s; exact (solver_01 lg h WT WT0 TWT A _ _ _ _ _ _ (Hy s))).
        assert (Z01 : 0 <= z sa <= 1) by (split; [exact (total_le _ _ _ [] Ty (NoDup_nil _) (Forall_nil _))|apply (draw_le lg WT WT0 TWT y); [lra|exact Ty|intros s _; apply Y01]]).
        assert (V01 : 0 <= avg (136 * k) (fun u => avg n (fun w => avg (r * LL) (fun v => P_prob.ind (gm (S r) t seen (sa ++ u ++ w ++ v))))) <= 1) by (apply avg_in01; intros u; apply avg_in01; intros w; apply avg_in01; intros v; apply ind01).
        apply Rabs_le. lra.
      * cbn [P_prob.ind]. rewrite Rplus_0_l. destruct (lookup t (sa ++ msg)) eqn:Et; [discriminate EF|].
        set (cont := fun v c e => gm r ((sa ++ msg, unhash c) :: t) ((c, e) :: seen) v).
        assert (EV : avg (136 * k) (fun u => avg n (fun w => avg (r * LL) (fun v => P_prob.ind (gm (S r) t seen (sa ++ u ++ w ++ v))))) =
          avg (r * LL) (fun v => prob L (fun w => let xof := fun _ : list Z => stream (firstn (136 * k) w) in sees (cont v) (hash_to_point k xof lg sa msg z0) (sign RF exact_table m k xof lg skey msg sig (stream (sa ++ skipn (136 * k) w)))))).
        { transitivity (avg (r * LL) (fun v => avg (136 * k) (fun u => avg n (fun w => P_prob.ind (gm (S r) t seen (sa ++ u ++ w ++ v)))))).
          - etransitivity; [|apply avg_swap]. apply avg_ext. intros u _ _. apply avg_swap.
          - apply avg_ext. intros v Lv _. rewrite prob_avg, avg_split. apply avg_ext. intros u Lu Bu. apply avg_ext. intros w Lw _. f_equal. rewrite play_step by assumption. rewrite EA. unfold known. rewrite Et.
            rewrite (firstn_app (136 * k) u), Lu, Nat.sub_diag, firstn_O, app_nil_r, (firstn_all2 u) by lia. rewrite (skipn_app (136 * k) u), Lu, Nat.sub_diag, (skipn_all2 u) by lia. rewrite skipn_O. cbn [app].
            change (hash_to_point k (fun _ => stream u) lg sa msg z0) with (hashb lg k u). unfold sees. destruct (hashb lg k u) as [c| |] eqn:EU; [|reflexivity|reflexivity]. destruct (sign _ _ _ _ _ _ _ _ _ _) as [[[|] e]| |]; try reflexivity.
            unfold cont. destruct (hashb_facts lg k u c Bu EU) as [Lc Cc]. apply play_twin; [|exact Lv]. constructor; [|apply (twin_refl lg k)]. split; [reflexivity|]. cbn [snd]. rewrite EU, (hashb_unhash lg k c Hlg Hk Lc Cc). reflexivity. }
        rewrite EV. apply (step_near lg Hlg h WT WT0 TWT k f g F_ G_ h0 HS Lh HK skey HD m n Hm Hn sa msg sig (r * LL) cont y (z sa)); [exact La|exact Ba|exact Bsg|exact Ls| |exact Ty].
        intros s. exact (IH ((sa ++ msg, unhash (point_of lg h s)) :: t) _ _ _ (Hy s)).
Qed.
End Play.
