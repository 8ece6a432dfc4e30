(** P_pdef.v -- every call of ff_sampling in exact arithmetic obeys the law of the integer sampler. *)
From Verif Require Import Base Ring Poly Spec SpecR SpecS SpecG M_ff M_xform P_xform M_codec P_codec M_sig M_verify M_float M_exact P_exp P_exact M_samp M_fft M_ntru P_ntru M_tree P_tree P_brv P_cplx P_fft P_treex P_gs P_leaf P_sign P_signx P_norm P_normx P_def P_defx P_prob P_dist P_joint P_gsum P_prog P_jprob P_pnorm.
From Verif Require P_sampz.
From Coq Require Import Ring_theory Ring Lra Psatz.
Notation pev := Poly.pev.
Open Scope R_scope.

(** ** combining programs *)
Section Gen.
Variables (F : fops) (smin : D F) (ct sd : D F -> R) (thf : D F -> D F -> nat -> Z -> Z).
Notation lawp := (lawp F smin ct sd thf). Notation sdp := (sdp F sd). Notation deep := (deep F). Notation flo := (flo F ct).
Definition nearf (c : D F * D F * Z) : Prop := (-18 <= snd c - flo (fst (fst c)) <= 19)%Z.
Lemma lawp_bind {A B} (p : prog F A) (k : A -> prog F B) : lawp p -> (forall cs a, pcalls p cs a -> Forall nearf cs -> lawp (k a)) -> lawp (pbind p k).
Proof.
  induction p as [a|mu s c IH|b]; intros L K; cbn [pbind P_jprob.lawp] in *; [exact (K [] a (conj eq_refl eq_refl) (Forall_nil _))| |exact L].
  destruct L as [L LP]. split; [exact L|]. intros v Hv. apply IH; [apply LP; exact Hv|]. intros cs a Hc HF. apply (K ((mu, s, v) :: cs) a); [exists v, cs; auto|constructor; [exact Hv|exact HF]].
Qed.
Lemma sdp_bind {A B} (p : prog F A) (k : A -> prog F B) : sdp p -> (forall cs a, pcalls p cs a -> sdp (k a)) -> sdp (pbind p k).
Proof.
  induction p as [a|mu s c IH|b]; intros L K; cbn [pbind P_jprob.sdp] in *; [exact (K [] a (conj eq_refl eq_refl))| |exact L].
  destruct L as [L LP]. split; [exact L|]. intros v. apply IH; [apply LP|]. intros cs a Hc. apply (K ((mu, s, v) :: cs) a). exists v, cs; auto.
Qed.
Lemma deep_mono {A} (p : prog F A) : forall d d', deep d p -> (d <= d')%nat -> deep d' p.
Proof. induction p as [a|mu s c IH|b]; intros d d' H L; cbn [P_jprob.deep] in *; [exact I| |exact I]. destruct d as [|d]; [tauto|]. destruct d' as [|d']; [lia|]. intros v. apply (IH v d); [apply H|lia]. Qed.
Lemma deep_bind {A B} (p : prog F A) (k : A -> prog F B) d' : (forall a, deep d' (k a)) -> forall d, deep d p -> deep (d + d') (pbind p k).
Proof.
  intros K. induction p as [a|mu s c IH|b]; intros d H; cbn [pbind]; [apply deep_mono with d'; [apply K|lia]| |exact I].
  cbn [P_jprob.deep] in *. destruct d as [|d]; [tauto|]. cbn [Nat.add]. intros v. apply IH, H.
Qed.
Lemma deep_lift {A B} (r : res A) (k : A -> prog F B) d : (forall a, deep d (k a)) -> deep d (pbind (lift r) k).
Proof. intros K. destruct r; cbn [lift pbind]; [apply K|exact I|exact I]. Qed.
Lemma deep_ff ztab T h : forall lvl t0 t1 off, deep (2 * 2 ^ h) (ff_prog F ztab T h lvl t0 t1 off).
Proof.
  induction h as [|h IH]; intros lvl t0 t1 off; cbn [ff_prog].
  - apply deep_lift. intros x. apply deep_lift. intros a. intros z0. apply deep_lift. intros b z1. exact I.
  - apply deep_lift. intros l. apply deep_lift. intros t. replace (2 * 2 ^ S h)%nat with (2 * 2 ^ h + 2 * 2 ^ h)%nat by (cbn [Nat.pow]; lia). apply deep_bind; [|apply IH].
    intros zr. apply deep_lift. intros u. replace (2 * 2 ^ h)%nat with (2 * 2 ^ h + 0)%nat by lia. apply deep_bind; [|apply IH]. intros zl. apply deep_lift. intros m. exact I.
Qed.
End Gen.

(** ** one call in exact arithmetic *)
Definition thx (smin : R) (mu s : R) : nat -> Z -> Z := th_of mu s smin.
Notation lawR smin := (lawful RF smin (fun x : R => x) (fun x : R => x) (thx smin)).
Lemma law_RF smin mu s : 1 <= smin -> smin <= s -> s <= 18205 / 10000 -> (Z.abs (Rfloor mu) <= 2147483000)%Z -> lawR smin mu s.
Proof.
  intros H1 H2 H3 H4. assert (E := thr_R mu s smin).
  assert (TH : forall z0 b, (z0 < 19)%nat -> (b = 0 \/ b = 1)%Z -> P_sampz.thr RF mu s smin z0 b (thx smin mu s z0 b)).
  { intros z0 b Hz Hb. destruct (E z0 b Hz Hb ltac:(lra) ltac:(lra)) as (t & Et & _). unfold P_sampz.thr, thx, th_of in *. rewrite Et. reflexivity. }
  assert (TO : forall z, (-18 <= z <= 19)%Z -> to_i32 RF (fadd RF (fofz RF z) (ffloor RF mu)) = Ok (Rfloor mu + z)%Z) by (intros z Hz; apply to_i32_R; assumption).
  assert (TR : forall z0 b, (z0 < 19)%nat -> (b = 0 \/ b = 1)%Z -> (0 <= thx smin mu s z0 b < 2 ^ 64)%Z) by (intros z0 b Hz Hb; apply (th_range RF mu s smin _ TH z0 b Hz Hb)).
  assert (TB : forall z0 b, (z0 < 19)%nat -> (b = 0 \/ b = 1)%Z ->
    let x := (IZR (zsigned z0 b) - (mu - IZR (Rfloor mu))) ^ 2 / (2 * s ^ 2) - INR z0 ^ 2 / (2 * (18205 / 10000) ^ 2) in
    0 <= x /\ Rabs (IZR (thx smin mu s z0 b) / 2 ^ 64 - smin / s * exp (- x)) <= / 2 ^ 39 * exp (- x) + / 2 ^ 63).
  { intros z0 b Hz Hb. cbv zeta. fold (xval mu s z0 b). split; [apply xval_range; try assumption; lra|].
    destruct (E z0 b Hz Hb ltac:(lra) ltac:(lra)) as (t & Et & B). pose proof (TH z0 b Hz Hb) as E'.
    unfold P_sampz.thr in Et, E'. rewrite Et in E'. assert (X : thx smin mu s z0 b = t) by congruence. rewrite X.
    replace (2 ^ 64) with w64 by (unfold w64; lra). eapply Rle_trans; [exact B|]. apply Rplus_le_compat_r, Rmult_le_compat_r; [left; apply exp_pos|]. apply Rinv_le_contravar; [apply pow_lt; lra|apply Rle_pow; [lra|lia]]. }
  split.
  - exact TH.
  - exact TO.
  - exact (proj1 (one_close mu s smin H1 H2 H3 (thx smin mu s) TR TB)).
  - exact (P_pos mu s smin H1 H2 H3 (thx smin mu s) TR TB).
  - exact (P_out mu (thx smin mu s)).
  - exact (P_sum mu s smin H1 H2 H3 (thx smin mu s) TR TB).
  - exact (one_tv mu s smin H1 H2 H3 (thx smin mu s) TR TB).
Qed.

(** ** the walk *)
Notation nearR := (nearf RF (fun x : R => x)).
Lemma near_energy (cs : list call) : Forall nearR cs -> Forall (fun c => 127 / 100 <= stddev c) cs -> energy cs <= 112 * INR (length cs).
Proof.
  induction cs as [|c cs IH]; intros HN HF; [cbn; lra|]. inversion HN as [|? ? Hn HN']. inversion HF as [|? ? Hc HF']. subst.
  specialize (IH HN' HF'). assert (H1 : Rabs (IZR (outcome c) - centre c) <= 19).
  { unfold nearf, flo in Hn. change (fst (fst c)) with (centre c) in Hn. change (snd c) with (outcome c) in Hn. pose proof (Rfloor_spec (centre c)) as G. destruct Hn as [N1 N2]. apply IZR_le in N1, N2. rewrite minus_IZR in N1, N2. apply Rabs_le. lra. }
  apply Rabs_le_inv in H1. cbn [length]. rewrite S_INR. unfold energy in *. cbn [fold_right].
  set (e := fold_right _ _ _) in *. set (u := IZR (outcome c) - centre c) in *. set (s := stddev c) in *. clearbody u s e.
  assert (u * u <= 361) by nra. assert (1612 / 1000 <= s * s) by nra.
  assert (u * u / (2 * (s * s)) <= 112).
  { apply Rmult_le_reg_r with (2 * (s * s)); [lra|]. replace (u * u / (2 * (s * s)) * (2 * (s * s))) with (u * u) by (field; nra). lra. }
  lra.
Qed.

Lemma zb : forall i : nat, byte ((fun _ : nat => 0%Z) i). Proof. intros i. unfold byte. lia. Qed.
Section Walk.
Variables (smin : R) (T : list Cx) (sigma : R).
Hypothesis Hsigma : 0 < sigma.
Hypothesis Hsmin : 127 / 100 <= smin.
Notation pgm h lvl a b off := (ff_prog RF exact_table T h lvl a b off).
Notation lawp := (lawp RF smin (fun x : R => x) (fun x : R => x) (thx smin)).
Notation sdp := (sdp RF (fun x : R => x)).
Definition ok_leaves (ls : list Cx) : Prop := Forall (fun x : Cx => smin <= fst x <= 18205 / 10000) ls.

Lemma pclaim_energy h lvl off d ls (p : cpv (2 ^ S h)) (cs : list call) a : (S h <= 10)%nat -> pclaim T sigma h lvl off d ls -> ok_leaves ls -> creal p ->
  pcalls (pgm h lvl (@ft h (pev Cx Czero p)) (@ft h (pod Cx Czero p)) off) cs (zz h a) -> Forall nearR cs ->
  Rsum (2 ^ S h) (fun i => d i * sq (Csub (@ev (S h) p i) (@ev (S h) (emb a) i))) <= INR (2 ^ S h) * (2 * (sigma * sigma) * 112 * INR (2 ^ S h)).
Proof.
  intros Hh C GL Hp H HF. destruct (pc_res _ _ _ _ _ _ _ C p cs _ Hp H) as (a' & Ea & Lc & Ds & En). apply zz_inj in Ea; [|exact Hh]. subst a'.
  assert (EB' : energy cs <= 112 * INR (2 ^ S h)).
  { rewrite <- Lc. apply near_energy; [exact HF|]. rewrite Forall_forall. intros c Hc. assert (I : In (stddev c) (twice (rev (map (fun x : Cx => fst x) ls)))) by (rewrite <- Ds; apply in_map; exact Hc).
    apply twice_in, in_rev, in_map_iff in I. destruct I as [x [<- Hx]]. unfold ok_leaves in GL. rewrite Forall_forall in GL. specialize (GL x Hx). lra. }
  rewrite En in EB'. assert (PN := INR_pow2_pos (S h)). assert (Ps : 0 < 2 * (sigma * sigma)) by nra.
  set (S := Ring.rsum _ _ _ _ _) in *. clearbody S. set (n := INR _) in *. clearbody n. set (s := 2 * (sigma * sigma)) in *. clearbody s.
  apply (Rmult_le_compat_l (s * n)) in EB'; [|nra]. replace (s * n * (/ s * (S / n))) with S in EB' by (field; lra). lra.
Qed.

Section Node.
Variables (h lvl off : nat) (l : list Cx) (p0 p1 pl : cpv (2 ^ S h)) (da db : nat -> R) (la lb : list Cx).
Hypothesis Hh : (S h <= 10)%nat.
Hypothesis LT : (off + 2 ^ S h <= length T)%nat.
Hypothesis Ll : length l = (2 ^ S h)%nat.
Hypothesis Hl : forall i, (i < 2 ^ S h)%nat -> nth (off + i) T Czero = nth i l Czero.
Hypothesis El : l = ft pl.
Hypothesis Ca : pclaim T sigma h (S lvl) (off + 2 ^ (lvl + S h)) da la.
Hypothesis Cb : pclaim T sigma h (S lvl) (off + 2 ^ (lvl + S h) + 2 ^ h) db lb.
Hypotheses (H0 : herm p0) (H1 : herm p1) (Hp : herm pl).
Lemma node_law M Kc : ok_leaves lb ->
  lawp (pgm h (S lvl) (@ft h (pev Cx Czero p1)) (@ft h (pod Cx Czero p1)) (off + 2 ^ (lvl + S h) + 2 ^ h)%nat) ->
  (forall p : cpv (2 ^ S h), creal p -> (forall k, (k < 2 ^ S h)%nat -> Rabs (fst (cc p k)) <= M + Kc) ->
     lawp (pgm h (S lvl) (@ft h (pev Cx Czero p)) (@ft h (pod Cx Czero p)) (off + 2 ^ (lvl + S h))%nat)) ->
  (forall k, (k < 2 ^ S h)%nat -> Rabs (fst (cc p0 k)) <= M) ->
  (forall a1 : zpv (2 ^ S h), Rsum (2 ^ S h) (fun i => db i * sq (Csub (ev p1 i) (ev (emb a1) i))) <= INR (2 ^ S h) * (2 * (sigma * sigma) * 112 * INR (2 ^ S h)) ->
     forall k, (k < 2 ^ S h)%nat -> Rabs (fst (cc (cpmul (cpsub p1 (emb a1)) pl) k)) <= Kc) ->
  lawp (pgm (S h) lvl (ft p0) (ft p1) off).
Proof.
  intros Gb Rr Rl B0 Bc. rewrite (node_prog T h lvl off l p0 p1 pl Hh LT Ll Hl El). apply lawp_bind; [exact Rr|]. intros csr zr Hr HF.
  destruct (pc_res _ _ _ _ _ _ _ Cb p1 csr zr (real_p1 h p1 Hh H1) Hr) as (a1 & -> & _). rewrite mid_ok by exact Hh. cbn [lift pbind fst snd].
  assert (En := pclaim_energy h (S lvl) _ db lb p1 csr a1 Hh Cb Gb (real_p1 h p1 Hh H1) Hr HF). assert (Bn := Bc a1 En).
  apply lawp_bind.
  - apply Rl; [apply real_pnx; assumption|]. intros k Hk. unfold pnx. set (cr := cpmul (cpsub p1 (emb a1)) pl) in *. unfold Poly.padd. rewrite pc_mkp by exact Hk. specialize (B0 k Hk). specialize (Bn k Hk). revert B0 Bn. generalize (cc p0 k) (cc cr k). intros [x y] [u v]. cbn. intros A B.
    eapply Rle_trans; [apply Rabs_triang|]. lra.
  - intros csl zl Hl' _. destruct (pc_res _ _ _ _ _ _ _ Ca (pnx h p0 p1 pl a1) csl zl (real_pnx h p0 p1 pl Hh H0 H1 Hp a1) Hl') as (a0 & -> & _). rewrite last_ok by exact Hh. exact I.
Qed.
Lemma node_sd : sdp (pgm h (S lvl) (@ft h (pev Cx Czero p1)) (@ft h (pod Cx Czero p1)) (off + 2 ^ (lvl + S h) + 2 ^ h)%nat) ->
  (forall p : cpv (2 ^ S h), creal p -> sdp (pgm h (S lvl) (@ft h (pev Cx Czero p)) (@ft h (pod Cx Czero p)) (off + 2 ^ (lvl + S h))%nat)) ->
  sdp (pgm (S h) lvl (ft p0) (ft p1) off).
Proof.
  intros Rr Rl. rewrite (node_prog T h lvl off l p0 p1 pl Hh LT Ll Hl El). apply sdp_bind; [exact Rr|]. intros csr zr Hr.
  destruct (pc_res _ _ _ _ _ _ _ Cb p1 csr zr (real_p1 h p1 Hh H1) Hr) as (a1 & -> & _). rewrite mid_ok by exact Hh. cbn [lift pbind fst snd].
  apply sdp_bind.
  - apply Rl. apply real_pnx; assumption.
  - intros csl zl Hl'. destruct (pc_res _ _ _ _ _ _ _ Ca (pnx h p0 p1 pl a1) csl zl (real_pnx h p0 p1 pl Hh H0 H1 Hp a1) Hl') as (a0 & -> & _). rewrite last_ok by exact Hh. exact I.
Qed.
End Node.

Variables (delta K : R).
Hypothesis Hdelta : 0 < delta.
Hypothesis HK0 : 0 <= K.
Hypothesis HK : 2 * (sigma * sigma) * 112 * 1024 <= K * K * delta.
Lemma sub_law : forall h lvl off d, (S h <= 10)%nat -> (forall i, (i < 2 ^ S h)%nat -> delta <= d i) ->
  (forall i, (i < 2 ^ S h)%nat -> d (2 ^ S h - 1 - i)%nat = d i) -> (off + h * 2 ^ (lvl + h) + 2 ^ h <= length T)%nat ->
  stored RF (2 ^ (lvl + h)) h T off (ntree RF sigma (sub h (rv (2 ^ S h) d))) ->
  ok_leaves (leaves (ntree RF sigma (sub h (rv (2 ^ S h) d)))) ->
  forall p : cpv (2 ^ S h), creal p -> sdp (pgm h lvl (@ft h (pev Cx Czero p)) (@ft h (pod Cx Czero p)) off) /\
    forall M, (forall k, (k < 2 ^ S h)%nat -> Rabs (fst (cc p k)) <= M) -> M + INR h * K <= 2147482000 ->
    lawp (pgm h lvl (@ft h (pev Cx Czero p)) (@ft h (pod Cx Czero p)) off).
Proof.
  induction h as [|h IH]; intros lvl off d Hh Hd Hs LT St GL p Hp.
  - cbn [sub ntree stored P_tree.leaves] in *. inversion GL as [|? ? G0 _]. subst.
    assert (exists x, rd T off = Ok x /\ fst x = fst (nleaf RF sigma (nth 0 (rv (2 ^ 1) d) (c0 RF)))) as [x [Hx Ex]].
    { destruct (nth_error T off) as [x|] eqn:E; [|apply nth_error_None in E; simpl in LT; lia]. exists x. unfold rd. rewrite E. split; [reflexivity|].
      apply nth_error_nth with (d := c0 RF) in E. rewrite <- E. apply f_equal. exact St. }
    rewrite (base_prog T lvl off p x Hx). assert (G : smin <= fst x <= 18205 / 10000) by (rewrite Ex; exact G0). clear G0.
    split.
    + cbn [P_jprob.sdp]. split; [split; lra|]. intros u. split; [split; lra|]. intros v. exact I.
    + intros M HM BM. simpl (INR 0) in BM. assert (M0 := HM 0%nat ltac:(simpl; lia)). assert (M1 := HM 1%nat ltac:(simpl; lia)). cbn [P_jprob.lawp].
      split; [apply law_RF; try lra; apply (floor_small _ M M0); lra|]. intros u _. split; [apply law_RF; try lra; apply (floor_small _ M M1); lra|]. intros v _. exact I.
  - assert (Hdp : forall i, (i < 2 ^ S (S h))%nat -> 0 < d i) by (intros i Hi; specialize (Hd i Hi); lra).
    destruct (sub_node _ zb h d Hh Hdp Hs) as [l [pl [Es [Hl [Sam Shm]]]]].
    rewrite Es in St, GL. cbn [ntree stored] in St. cbn [ntree P_tree.leaves] in GL. destruct St as [Ll [Nl [Sa Sb]]].
    apply Forall_app in GL. destruct GL as [Ga Gb]. destruct (Hl Ll) as [El [Hpl Hl1]]. clear Hl.
    assert (E2 : (2 ^ S (S h) = 2 * 2 ^ S h)%nat) by reflexivity. assert (E3 : (2 ^ S h = 2 * 2 ^ h)%nat) by reflexivity.
    assert (Ew : (2 ^ (lvl + S h) = 2 ^ (S lvl + h))%nat) by (f_equal; lia).
    assert (Ew2 : (2 ^ S h <= 2 ^ (lvl + S h))%nat) by (apply Nat.pow_le_mono_r; lia).
    assert (H0 : herm (pev Cx Czero p : cpv (2 ^ S h))) by (apply real_herm, real_pev, Hp).
    assert (H1 : herm (pod Cx Czero p : cpv (2 ^ S h))) by (apply real_herm, real_pod, Hp).
    assert (LTn : (off + 2 ^ S h <= length T)%nat) by (simpl Nat.mul in LT; lia).
    assert (LTa : (off + 2 ^ (lvl + S h) + h * 2 ^ (S lvl + h) + 2 ^ h <= length T)%nat) by (rewrite <- Ew; simpl Nat.mul in LT; lia).
    assert (LTb : (off + 2 ^ (lvl + S h) + 2 ^ h + h * 2 ^ (S lvl + h) + 2 ^ h <= length T)%nat) by (rewrite <- Ew; simpl Nat.mul in LT; lia).
    assert (Sa' : stored RF (2 ^ (S lvl + h)) h T (off + 2 ^ (lvl + S h)) (ntree RF sigma (sub h (rv (2 ^ S h) (am2 d))))) by (rewrite Ew in Sa |- *; exact Sa).
    assert (Sb' : stored RF (2 ^ (S lvl + h)) h T (off + 2 ^ (lvl + S h) + 2 ^ h) (ntree RF sigma (sub h (rv (2 ^ S h) (hm2 d))))) by (rewrite Ew in Sb |- *; exact Sb).
    assert (Ca : pclaim T sigma h (S lvl) (off + 2 ^ (lvl + S h)) (am2 d) (leaves (ntree RF sigma (sub h (rv (2 ^ S h) (am2 d)))))).
    { apply sub_pclaim; [lra|lia|intros i Hi; apply (am2_pos (2 ^ S h)); [apply pow2_pos|intros; apply Hdp; lia|exact Hi]|exact Sam|exact LTa|exact Sa']. }
    assert (Cb : pclaim T sigma h (S lvl) (off + 2 ^ (lvl + S h) + 2 ^ h) (hm2 d) (leaves (ntree RF sigma (sub h (rv (2 ^ S h) (hm2 d)))))).
    { apply sub_pclaim; [lra|lia|intros i Hi; apply (hm2_pos (2 ^ S h)); [apply pow2_pos|intros; apply Hdp; lia|exact Hi]|exact Shm|exact LTb|exact Sb']. }
    assert (La : forall i, (i < 2 ^ S h)%nat -> delta <= am2 d i) by (intros i Hi; apply (am2_low _ zb delta (2 ^ S h)); [exact Hi|intros; apply Hd; lia]).
    assert (Lb : forall i, (i < 2 ^ S h)%nat -> delta <= hm2 d i) by (intros i Hi; apply (hm2_low _ zb delta Hdelta (2 ^ S h)); [exact Hi|intros; apply Hd; lia]).
    assert (Da := IH (S lvl) (off + 2 ^ (lvl + S h))%nat (am2 d) ltac:(lia) La Sam LTa Sa' Ga).
    assert (Db := IH (S lvl) (off + 2 ^ (lvl + S h) + 2 ^ h)%nat (hm2 d) ltac:(lia) Lb Shm LTb Sb' Gb).
    assert (R1 : creal (pod Cx Czero p : cpv (2 ^ S h))) by (apply herm_real; [lia|exact H1]).
    split.
    + apply (node_sd h lvl off l _ _ pl (am2 d) (hm2 d) _ _ ltac:(lia) LTn Ll Nl El Ca Cb H0 H1 Hpl); [apply (Db _ R1)|intros p' Rp; apply (Da _ Rp)].
    + intros M HM BM. rewrite S_INR in BM.
      assert (C0 : forall k, (k < 2 ^ S h)%nat -> Rabs (fst (cc (pev Cx Czero p : cpv (2 ^ S h)) k)) <= M) by (intros k Hk; unfold Poly.pev; rewrite pc_mkp by exact Hk; apply HM; lia).
      assert (C1 : forall k, (k < 2 ^ S h)%nat -> Rabs (fst (cc (pod Cx Czero p : cpv (2 ^ S h)) k)) <= M) by (intros k Hk; unfold pod; rewrite pc_mkp by exact Hk; apply HM; lia).
      apply (node_law h lvl off l _ _ pl (am2 d) (hm2 d) _ _ ltac:(lia) LTn Ll Nl El Ca Cb H0 H1 Hpl M K Gb).
      * apply (proj2 (Db _ R1) M C1). lra.
      * intros p' Rp Cp. apply (proj2 (Da _ Rp) (M + K) Cp). lra.
      * exact C0.
      * intros a1 HE. apply (small_corr _ sigma zb delta K Hdelta HK0 HK h (hm2 d)); [lia|exact Lb|exact Hl1|exact HE].
Qed.
End Walk.

(** ** the root *)
Section Root.
Variable h : nat.
Notation lg := (S h).
Hypothesis Hlg : (lg <= 10)%nat.
Variables f g F_ G_ : list Z.
Notation N := (2 ^ lg)%nat.
Hypotheses (Lf : length f = N) (Lg : length g = N) (LF : length F_ = N) (LG : length G_ = N).
Hypothesis HN : ntru N f g F_ G_.
Hypothesis HGS : gs_norm lg f g <= 16823.
Hypotheses (BF : Forall (fun x => Z.abs x <= 27000)%Z F_) (BG : Forall (fun x => Z.abs x <= 27000)%Z G_).
Variables (T : list Cx) (sigma smin : R) (c : list Z).
Hypothesis Hs : 0 < sigma < 1684 / 10.
Hypothesis Hm : 127 / 100 <= smin.
Hypothesis Hc : Forall canon c.
Hypothesis LT : ((lg + 1) * N <= length T)%nat.
Hypothesis St : stored RF N lg T 0 (ntree RF sigma (root_tree lg f g F_ G_)).
Hypothesis GL : ok_leaves smin (leaves (ntree RF sigma (root_tree lg f g F_ G_))).
Notation rprog := (ff_prog RF exact_table T lg 0 (ft (tp0 lg F_ c)) (ft (tp1 lg f c)) 0).
Lemma root_law : sdp RF (fun x : R => x) rprog /\ lawp RF smin (fun x : R => x) (fun x : R => x) (thx smin) rprog.
Proof.
  assert (Hs0 : sigma <> 0) by lra.
  destruct (root_parts h Hlg f g F_ G_ Lf Lg LF LG HN T sigma LT St) as (pl & Ll & Nl & El & Hpl & Sa & Sb & EL). rewrite EL in GL. apply Forall_app in GL. destruct GL as [Ga Gb].
  destruct (root_LT h Hlg f g F_ G_ Lf Lg LF LG T LT) as (LT0 & LTa & LTb).
  assert (Ca := root_a h Hlg f g F_ G_ Lf Lg LF LG HN T sigma Hs0 LT St). assert (Cb := root_b h Hlg f g F_ G_ Lf Lg LF LG HN T sigma Hs0 LT St).
  assert (HKK : 2 * (sigma * sigma) * 112 * 1024 <= 27400 * 27400 * (87 / 10)) by nra. assert (Hs1 : 0 < sigma) by lra.
  assert (Da := sub_law smin T sigma Hs1 Hm (87 / 10) 27400 ltac:(lra) ltac:(lra) HKK h 1 (0 + N) (dd lg f g) Hlg (dd_lower h Hlg f g F_ G_ Lf Lg LF LG HN HGS) (fun i Hi => dd_sym lg f g i Hi) LTa Sa Ga).
  assert (Db := sub_law smin T sigma Hs1 Hm (87 / 10) 27400 ltac:(lra) ltac:(lra) HKK h 1 (0 + N + 2 ^ h) (ddo lg f g) Hlg (ddo_lower h Hlg f g F_ G_ Lf Lg LF LG HN HGS) (ddo_sym h f g) LTb Sb Gb).
  assert (Bc : Forall (fun x => Z.abs x <= 12289)%Z c) by (eapply Forall_impl; [|exact Hc]; intros x Hx; unfold canon, q in Hx; cbv beta in *; lia).
  assert (Zn : (Z.of_nat N <= 1024)%Z). { change 1024%Z with (Z.of_nat (2 ^ 10)). apply inj_le, Nat.pow_le_mono_r; lia. }
  assert (Mf : Forall (fun x => Z.abs x <= 27000)%Z f).
  { rewrite Forall_forall. intros x Hx. assert (X := sqnorm_coeff _ _ Hx). assert (Y := sqnorm_pos g). 
    assert (M : IZR (sqnorm f + sqnorm g) <= gs_norm lg f g) by apply Rmax_l. assert (M' : (sqnorm f + sqnorm g <= 16823)%Z) by (apply le_IZR; lra). nia. }
  assert (IB : forall b k, (k < N)%nat -> Forall (fun x => Z.abs x <= 27000)%Z b -> Rabs (fst (cc (cpmul (kq lg) (cpmul (emb (ofl Z 0%Z N c)) (cpopp (emb (ofl Z 0%Z N b))))) k)) <= 27648000).
  { intros b k Hk Hb. apply Rle_trans with (1 := int_coef lg c b 12289 27000 k Hk ltac:(lia) ltac:(lia) Bc Hb). apply IZR_le in Zn. rewrite mult_IZR. change (IZR (12289 * 27000)) with 331803000. lra. }
  assert (C0 : forall k, (k < N)%nat -> Rabs (fst (cc (tp0 lg F_ c) k)) <= 27648000) by (intros k Hk; apply IB; assumption).
  assert (C1 : forall k, (k < N)%nat -> Rabs (fst (cc (tp1 lg f c) k)) <= 27648000) by (intros k Hk; unfold tp1; rewrite cc_opp by exact Hk; apply IB; assumption).
  assert (H0 := herm_tp0 h F_ c). assert (H1 := herm_tp1 h f c).
  assert (Hh10 : INR h <= 10). { replace 10 with (INR 10) by (rewrite INR_IZR_INZ; reflexivity). apply le_INR. lia. } assert (Hh0 := pos_INR h).
  assert (R1 : creal (tp1 lg f c)) by (apply herm_real; [exact Hlg|exact H1]).
  split.
  - apply (node_sd T sigma h 0 0 _ _ _ pl (dd lg f g) (ddo lg f g) _ _ Hlg LT0 Ll Nl El Ca Cb H0 H1 Hpl); [apply (Db _ R1)|intros p' Rp; apply (Da _ Rp)].
  - apply (node_law smin T sigma Hs1 Hm h 0 0 _ _ _ pl (dd lg f g) (ddo lg f g) _ _ Hlg LT0 Ll Nl El Ca Cb H0 H1 Hpl 27648000 260000000 Gb).
    + apply (proj2 (Db _ R1) 27648000 C1). nra.
    + intros p' Rp Cp. apply (proj2 (Da _ Rp) (27648000 + 260000000) Cp). nra.
    + exact C0.
    + intros a1 HE. apply (root_corr h Hlg f g F_ G_ Lf Lg LF LG HN BF BG sigma); assumption.
Qed.
End Root.
