(** P_live.v -- signing can succeed: for every hashed message some continuation of the random stream makes the first
    attempt succeed (nearest-plane choice at every leaf). *)
From Verif Require Import Base Ring Poly Spec SpecR SpecS M_ff M_xform P_ff P_xform M_codec P_codec M_ntt M_sig P_sig P_comp P_sigx M_verify P_verify M_float M_exact P_samp P_sampz P_exp P_exact M_samp M_fft M_ntru P_ntru P_keygen M_tree P_tree P_brv P_cplx P_fft P_treex P_gs P_leaf P_sign P_signb P_signx P_signv P_norm P_normx P_def P_defx.
From Verif Require P_verifyx P_key.
From Coq Require Import Ring_theory Ring Lra Psatz.
Notation pev := Poly.pev.
Open Scope R_scope.

(** ** one call: nine bytes 255, the sign bit, one byte 0 *)
Definition pattern (g : rng_t) (pos : nat) (bl : list Z) : Prop :=
  forall k, (k < length bl)%nat -> (forall j, (j < 9)%nat -> g (pos + 11 * k + j)%nat = 255%Z) /\ g (pos + 11 * k + 9)%nat = nth k bl 0%Z /\ g (pos + 11 * k + 10)%nat = 0%Z.
Lemma pattern_app g pos a b : pattern g pos (a ++ b) -> pattern g pos a /\ pattern g (pos + 11 * length a) b.
Proof.
  intros H. split; intros k Hk.
  - assert (X := H k ltac:(rewrite app_length; lia)). rewrite app_nth1 in X by exact Hk. exact X.
  - assert (X := H (length a + k)%nat ltac:(rewrite app_length; lia)). rewrite app_nth2 in X by lia.
    replace (length a + k - length a)%nat with k in X by lia. replace (pos + 11 * (length a + k))%nat with (pos + 11 * length a + 11 * k)%nat in X by lia. exact X.
Qed.
Lemma bytes_255 g pos : (forall j, (j < 9)%nat -> g (pos + j)%nat = 255%Z) -> bytes_at g pos 9 = repeat 255%Z 9.
Proof. intros H. unfold bytes_at. cbn [seq map repeat]. rewrite !H by lia. reflexivity. Qed.

Lemma samplerz_pattern fuel mu s smin g pos b : (1 <= fuel)%nat -> 127 / 100 <= smin <= s -> s <= 18205 / 10000 ->
  (Z.abs (Rfloor mu) <= 2147483000)%Z -> (b = 0 \/ b = 1)%Z -> (forall i, byte (g i)) ->
  (forall j, (j < 9)%nat -> g (pos + j)%nat = 255%Z) -> g (pos + 9)%nat = b -> g (pos + 10)%nat = 0%Z ->
  samplerz RF fuel mu s smin g pos = Ok ((Rfloor mu + b)%Z, (pos + 11)%nat).
Proof.
  intros Hf Hs1 Hs2 Hm Hb Hg H9 Eb E0. apply samplerz_ok; [exact Hg|].
  destruct (thr_R mu s smin 0 b ltac:(lia) Hb ltac:(lra) ltac:(lra)) as [t [Ht Et]].
  assert (T64 : (0 <= t < 2 ^ 64)%Z) by (unfold thr in Ht; exact (threshold_range RF _ _ _ Ht)).
  assert (T56 : (2 ^ 56 <= t)%Z).
  { assert (X : 0 <= xval mu s 0 b <= 32 / 100).
    { unfold xval. pose proof (Rfloor_spec mu) as G. set (r := mu - IZR (Rfloor mu)). assert (Hr : 0 <= r < 1) by (unfold r; lra). clearbody r.
      assert (Z0 : (IZR (zsigned 0 b) - r) ^ 2 <= 1 /\ 0 <= (IZR (zsigned 0 b) - r) ^ 2).
      { assert (IZR (zsigned 0 b) = 0 \/ IZR (zsigned 0 b) = 1) by (destruct Hb as [->| ->]; cbn; [left|right]; reflexivity). destruct H as [-> | ->]; split; nra. }
      set (y := (IZR (zsigned 0 b) - r) ^ 2) in *. clearbody y. assert (S2 : 16129 / 10000 <= s ^ 2) by nra. simpl (INR 0). set (s2 := s ^ 2) in *. clearbody s2.
      assert (P : 0 < 2 * s2) by lra. replace (y / (2 * s2) - 0 ^ 2 / (2 * (18205 / 10000) ^ 2)) with (y / (2 * s2)) by (field; lra).
      split; [apply Rmult_le_pos; [lra|left; apply Rinv_0_lt_compat; exact P]|].
      apply Rmult_le_reg_r with (2 * s2); [exact P|]. replace (y / (2 * s2) * (2 * s2)) with y by (field; lra). lra. }
    set (x := xval mu s 0 b) in *. clearbody x. assert (E1 : 1 + - x <= exp (- x)) by apply exp_ineq1_le. assert (E2 : exp (- x) <= 1). { rewrite <- exp_0. destruct (Req_dec x 0) as [->|]; [rewrite Ropp_0; lra|]. left. apply exp_increasing. lra. }
    assert (C : 69 / 100 <= smin / s). { apply Rmult_le_reg_r with s; [lra|]. replace (smin / s * s) with smin by (field; lra). nra. }
    set (e := exp (- x)) in *. set (cc0 := smin / s) in *. clearbody e cc0. apply Rabs_le_inv in Et.
    assert (P48 : / 2 ^ 48 <= / 100) by (apply Rinv_le_contravar; [lra|]; simpl; lra). assert (P63 : / 2 ^ 63 <= / 100) by (apply Rinv_le_contravar; [lra|]; simpl; lra).
    assert (P48' : 0 < / 2 ^ 48) by (apply Rinv_0_lt_compat; apply pow_lt; lra).
    assert (B1 : 69 / 100 * e <= cc0 * e) by (apply Rmult_le_compat_r; lra). assert (B2 : / 2 ^ 48 * e <= / 100 * e) by (apply Rmult_le_compat_r; lra).
    assert (B : / 256 <= IZR t / w64) by lra. apply le_IZR. change (2 ^ 56)%Z with 72057594037927936%Z. unfold w64 in B. lra. }
  exists 1%nat, (zsigned 0 b). split; [exact Hf|]. split; [|rewrite to_i32_R; [do 2 f_equal; destruct Hb as [->| ->]; reflexivity|apply signed_range; lia|exact Hm]].
  replace (pos + 11)%nat with (pos + 10 + 1)%nat by lia. apply rej_accept with t.
  - split; [lia|]. split; [|rewrite Eb; destruct Hb as [->| ->]; reflexivity].
    apply base_interval; [apply bytes_at_len|apply bytes_at_ok; exact Hg|lia|]. rewrite bytes_255 by exact H9. exact base_255.
  - exact Ht.
  - unfold bytes_at, be_value. cbn [seq map fold_left]. rewrite Nat.add_0_r, E0.
    assert (Y : forall i, (0 <= g i < 256)%Z) by exact Hg. assert (Y1 := Y (pos + 10 + 1)%nat). assert (Y2 := Y (pos + 10 + 2)%nat). assert (Y3 := Y (pos + 10 + 3)%nat).
    assert (Y4 := Y (pos + 10 + 4)%nat). assert (Y5 := Y (pos + 10 + 5)%nat). assert (Y6 := Y (pos + 10 + 6)%nat). assert (Y7 := Y (pos + 10 + 7)%nat).
    change (2 ^ 56)%Z with 72057594037927936%Z in T56. lia.
  - split; [lia|]. split.
    + intros m Hm'. assert (m = 0)%nat by lia. subst m. symmetry. apply Z.div_small. exact T64.
    + right. unfold bytes_at, be_value. cbn [seq map fold_left]. rewrite Nat.add_0_r, E0. change (0 * 256 + 0)%Z with 0%Z. change (256 ^ Z.of_nat (8 - 1))%Z with (2 ^ 56)%Z.
      assert (1 <= t / 2 ^ 56)%Z by (apply Z.div_le_lower_bound; lia). lia.
Qed.

(** the bit that makes the result a nearest integer *)
Definition nbit (mu : R) : Z := if Rle_dec (mu - IZR (Rfloor mu)) (1 / 2) then 0%Z else 1%Z.
Lemma nbit_01 mu : (nbit mu = 0 \/ nbit mu = 1)%Z.
Proof. unfold nbit. destruct (Rle_dec _ _); auto. Qed.
Lemma nbit_near mu : (mu - IZR (Rfloor mu + nbit mu)) * (mu - IZR (Rfloor mu + nbit mu)) <= 1 / 4.
Proof.
  pose proof (Rfloor_spec mu) as G. unfold nbit. destruct (Rle_dec _ _) as [H|H]; rewrite plus_IZR; set (r := mu - IZR (Rfloor mu)) in *.
  - replace (mu - (IZR (Rfloor mu) + 0)) with r by (unfold r; ring). assert (0 <= r) by (unfold r; lra). nra.
  - replace (mu - (IZR (Rfloor mu) + 1)) with (r - 1) by (unfold r; ring). assert (r < 1) by (unfold r; lra). nra.
Qed.

(** ** the walk *)
Section Near.
Variables (smin : R) (T : list Cx) (sigma : R).
Hypothesis Hsigma : 0 < sigma.
Hypothesis Hsmin : 127 / 100 <= smin.
Variables (delta K m : R).
Hypothesis Hdelta : 0 < delta.
Hypothesis HK0 : 0 <= K.
Hypothesis HK : 2 * (sigma * sigma) * 112 * 1024 <= K * K * delta.
Hypothesis Hm : 0 < m <= 2 * (sigma * sigma) * 112.
(** leaves between the minimal deviation and the maximal one, and of squared norm at most m *)
Definition live_leaf (x : Cx) : Prop := smin <= fst x <= 18205 / 10000 /\ sigma * sigma <= m * (fst x * fst x).
Notation run := (fun (fuel : nat) g h lvl off (a b : list Cx) pos => ff_sampling RF exact_table fuel h lvl a b T off smin g pos).
Notation quad h d p a := (Rsum (2 ^ S h) (fun i => d i * sq (Csub (@ev (S h) p i) (@ev (S h) (emb a) i)))).

Definition near (h lvl off : nat) (d : nat -> R) : Prop := forall (p : cpv (2 ^ S h)) pos M, creal p -> (forall k, (k < 2 ^ S h)%nat -> Rabs (fst (cc p k)) <= M) ->
  M + INR h * K <= 2147482000 ->
  exists bl (a : zpv (2 ^ S h)), length bl = (2 ^ S h)%nat /\ Forall (fun b => b = 0 \/ b = 1)%Z bl /\
    quad h d p a <= INR (2 ^ S h) * (INR (2 ^ S h) * (m / 4)) /\
    forall fuel g, (1 <= fuel)%nat -> (forall i, byte (g i)) -> pattern g pos bl ->
      run fuel g h lvl off (@ft h (pev Cx Czero p)) (@ft h (pod Cx Czero p)) pos = Ok (@ft h (pev Cx Czero (@emb (2 ^ S h) a)), @ft h (pod Cx Czero (@emb (2 ^ S h) a)), (pos + 11 * 2 ^ S h)%nat).

Lemma node_run fuel g h lvl off (l : list Cx) (p0 p1 pl : cpv (2 ^ S h)) pos (a0 a1 : zpv (2 ^ S h)) q1 q2 : (S h <= 10)%nat -> (off + 2 ^ S h <= length T)%nat ->
  length l = (2 ^ S h)%nat -> (forall i, (i < 2 ^ S h)%nat -> nth (off + i) T Czero = nth i l Czero) -> l = ft pl ->
  run fuel g h (S lvl) (off + 2 ^ (lvl + S h) + 2 ^ h)%nat (@ft h (pev Cx Czero p1)) (@ft h (pod Cx Czero p1)) pos = Ok (@ft h (pev Cx Czero (@emb (2 ^ S h) a1)), @ft h (pod Cx Czero (@emb (2 ^ S h) a1)), q1) ->
  let pn := cpadd p0 (cpmul (cpsub p1 (emb a1)) pl) in
  run fuel g h (S lvl) (off + 2 ^ (lvl + S h))%nat (@ft h (pev Cx Czero pn)) (@ft h (pod Cx Czero pn)) q1 = Ok (@ft h (pev Cx Czero (@emb (2 ^ S h) a0)), @ft h (pod Cx Czero (@emb (2 ^ S h) a0)), q2) ->
  run fuel g (S h) lvl off (ft p0) (ft p1) pos = Ok (ft (emb a0), ft (emb a1), q2).
Proof.
  intros Hh LT Ll Hl El Rr pn Rl. cbv beta in *. cbn [ff_sampling]. rewrite half_pow2. rewrite <- Nat.pow_add_r.
  assert (LF : @length Cx (fresh RF (2 ^ h)) = (2 ^ h)%nat) by apply repeat_length.
  assert (LF' : @length Cx (fresh RF (2 ^ S h)) = (2 ^ S h)%nat) by apply repeat_length.
  destruct (rds_total (T : list (D RF * D RF)) (2 ^ S h) off LT) as [lT Er]. rewrite Er. cbn [bind].
  assert (E : lT = ft pl).
  { destruct (rds_inv Czero (T : list Cx) _ _ _ Er) as [L1 N1]. rewrite <- El.
    apply (@list_ext Cx Czero); [rewrite Ll; exact L1|]. intros i Hi. change (i < @length Cx lT)%nat in Hi. assert (i < 2 ^ S h)%nat by (rewrite <- L1; exact Hi).
    etransitivity; [apply N1; assumption|]. apply Hl. assumption. }
  subst lT. rewrite split_ok by assumption. cbn [bind]. rewrite Rr. cbn [bind].
  rewrite merge_ok by assumption. cbn [bind]. rewrite pint_eo. change (2 * 2 ^ h)%nat with (2 ^ S h)%nat.
  rewrite cpoly_sub_ok by assumption. cbn [bind].
  rewrite cpoly_mul_ok by assumption. cbn [bind].
  rewrite cpoly_add_ok by apply ft_length. cbn [bind]. fold pn.
  rewrite split_ok by assumption. cbn [bind]. rewrite Rl. cbn [bind].
  rewrite merge_ok by assumption. cbn [bind]. rewrite pint_eo. reflexivity.
Qed.

Lemma near_base lvl off d : (forall i, (i < 2 ^ 1)%nat -> 0 < d i) -> d 1%nat = d 0%nat -> (off < length T)%nat ->
  stored RF (2 ^ (lvl + 0)) 0 T off (ntree RF sigma (sub 0 (rv (2 ^ 1) d))) ->
  Forall live_leaf (leaves (ntree RF sigma (sub 0 (rv (2 ^ 1) d)))) -> near 0 lvl off d.
Proof.
  intros Hd Es LT St GL p pos M Hp HM BM. cbn [sub ntree stored P_tree.leaves] in *. rewrite rv_nth in St, GL by (simpl; lia). inversion GL as [|? ? [G0 G1] _]. subst.
  assert (D0 := Hd 0%nat ltac:(simpl; lia)). simpl (INR 0) in BM.
  set (m0 := fst (cc p 0)). set (m1 := fst (cc p 1)).
  assert (M0 := HM 0%nat ltac:(simpl; lia)). assert (M1 := HM 1%nat ltac:(simpl; lia)).
  set (u := (Rfloor m0 + nbit m0)%Z). set (v := (Rfloor m1 + nbit m1)%Z).
  assert (exists A : zpv (2 ^ 1), pc Z 0%Z A 0 = u /\ pc Z 0%Z A 1 = v) as [A [A0 A1]] by (exists (ofl Z 0%Z 2 [u; v]); split; reflexivity).
  exists [nbit m0; nbit m1], A. split; [reflexivity|]. split; [constructor; [apply nbit_01|constructor; [apply nbit_01|constructor]]|].
  assert (C0 : cc (@emb (2 ^ 1) A) 0 = Cz u) by (rewrite emb_c by (simpl; lia); rewrite A0; reflexivity).
  assert (C1 : cc (@emb (2 ^ 1) A) 1 = Cz v) by (rewrite emb_c by (simpl; lia); rewrite A1; reflexivity).
  split.
  { assert (Pv := parseval 1 (cpsub p (emb A))).
    assert (Ed : Rsum (2 ^ 1) (fun i => d i * sq (Csub (@ev 1 p i) (@ev 1 (emb A) i))) =
       d 0%nat * Rsum (2 ^ 1) (fun i => sq (@ev 1 (cpsub p (emb A)) i))).
    { rewrite <- Rsum_scal. apply rsum_ext. intros i Hi. rewrite ev_sub. f_equal. simpl in Hi. assert (i = 0 \/ i = 1)%nat as [->| ->] by lia; [reflexivity|exact Es]. }
    rewrite Ed, Pv. assert (P2 : Rsum (2 ^ 1) (fun j => sq (cc (cpsub p (emb A)) j)) = 0 + sq (Csub (cc p 0) (cc (@emb (2 ^ 1) A) 0)) + sq (Csub (cc p 1) (cc (@emb (2 ^ 1) A) 1))).
    { assert (X : forall k, (k < 2 ^ 1)%nat -> cc (cpsub p (emb A)) k = Csub (cc p k) (cc (@emb (2 ^ 1) A) k)) by (intros k Hk; apply pc_sub; exact Hk).
      rewrite (rsum_ext _ _ _ _ _ (fun k => sq (Csub (cc p k) (cc (@emb (2 ^ 1) A) k)))) by (intros k Hk; rewrite X by exact Hk; reflexivity). reflexivity. }
    rewrite P2.
    assert (R0 : snd (cc p 0) = 0) by (apply Hp; simpl; lia). assert (R1 : snd (cc p 1) = 0) by (apply Hp; simpl; lia).
    assert (Q0 : sq (Csub (cc p 0) (cc (@emb (2 ^ 1) A) 0)) = (m0 - IZR u) * (m0 - IZR u)).
    { rewrite C0. unfold sq, Csub, Cz, m0. revert R0. generalize (IZR u). generalize (cc p 0). intros [r s] z R0. cbn in *. rewrite R0. ring. }
    assert (Q1 : sq (Csub (cc p 1) (cc (@emb (2 ^ 1) A) 1)) = (m1 - IZR v) * (m1 - IZR v)).
    { rewrite C1. unfold sq, Csub, Cz, m1. revert R1. generalize (IZR v). generalize (cc p 1). intros [r s] z R1. cbn in *. rewrite R1. ring. }
    rewrite Q0, Q1. assert (N0 := nbit_near m0). assert (N1 := nbit_near m1). fold u in N0. fold v in N1.
    assert (Dm : d 0%nat <= m).
    { cbn [nleaf fst cof RF] in G1. unfold nleaf in G1. cbn [fst cof] in G1. change (sigma * sigma <= m * (sigma / sqrt (d 0%nat) * (sigma / sqrt (d 0%nat)))) in G1.
      assert (S0 := sqrt_lt_R0 _ D0). assert (SS := sqrt_sqrt (d 0%nat) ltac:(lra)).
      replace (sigma / sqrt (d 0%nat) * (sigma / sqrt (d 0%nat))) with (sigma * sigma / d 0%nat) in G1 by (rewrite <- SS at 1; field; lra).
      apply (Rmult_le_compat_r (d 0%nat)) in G1; [|lra]. replace (m * (sigma * sigma / d 0%nat) * d 0%nat) with (m * (sigma * sigma)) in G1 by (field; lra).
      assert (0 < sigma * sigma) by nra. nra. }
    set (y0 := (m0 - IZR u) * (m0 - IZR u)) in *. set (y1 := (m1 - IZR v) * (m1 - IZR v)) in *. change (INR (2 ^ 1)) with (1 + 1). 
    assert (0 <= y0) by (unfold y0; apply Rle_0_sqr). assert (0 <= y1) by (unfold y1; apply Rle_0_sqr). clearbody y0 y1. 
    assert (d 0%nat * (y0 + y1) <= m * (1 / 2)) by (apply Rmult_le_compat; lra). lra. }
  intros fuel g Hfuel Hg Pt. cbv beta. cbn [ff_sampling].
  assert (exists x, rd T off = Ok x /\ fst x = fst (nleaf RF sigma (Cof (d 0%nat)))) as [x [Hx Ex]].
  { destruct (nth_error T off) as [x|] eqn:E; [|apply nth_error_None in E; lia]. exists x. unfold rd. rewrite E. split; [reflexivity|].
    apply nth_error_nth with (d := c0 RF) in E. rewrite <- E. apply f_equal. exact St. }
  match goal with |- bind ?e _ = _ => replace e with (@Ok Cx x) by (symmetry; exact Hx) end. cbn [bind]. clear Hx.
  assert (Ea : rd (@ft 0 (pev Cx Czero p)) 0 = Ok (cc p 0)).
  { rewrite (rd_Ok _ _ Czero) by (rewrite ft_length; simpl; lia). f_equal. etransitivity; [apply (nth_ft 0); simpl; lia|]. rewrite ev0. unfold Poly.pev. rewrite pc_mkp by (simpl; lia). reflexivity. }
  assert (Eb : rd (@ft 0 (pod Cx Czero p)) 0 = Ok (cc p 1)).
  { rewrite (rd_Ok _ _ Czero) by (rewrite ft_length; simpl; lia). f_equal. etransitivity; [apply (nth_ft 0); simpl; lia|]. rewrite ev0. unfold pod. rewrite pc_mkp by (simpl; lia). reflexivity. }
  assert (G0' : smin <= fst x <= 18205 / 10000) by (rewrite Ex; exact G0).
  destruct (Pt 0%nat ltac:(simpl; lia)) as [Pa [Pb Pc]]. destruct (Pt 1%nat ltac:(simpl; lia)) as [Pd [Pe Pf]]. cbn [nth] in Pb, Pe.
  rewrite Nat.mul_0_r, Nat.add_0_r in Pa, Pb, Pc. rewrite Nat.mul_1_r in Pd, Pe, Pf.
  assert (BM' : M <= 2147482000) by lra.
  assert (Z0 := samplerz_pattern fuel m0 (fst x) smin g pos (nbit m0) Hfuel (conj Hsmin (proj1 G0')) (proj2 G0') (floor_small _ M M0 BM') (nbit_01 m0) Hg Pa Pb Pc).
  assert (Z1 := samplerz_pattern fuel m1 (fst x) smin g (pos + 11) (nbit m1) Hfuel (conj Hsmin (proj1 G0')) (proj2 G0') (floor_small _ M M1 BM') (nbit_01 m1) Hg Pd Pe Pf).
  match goal with |- bind ?e _ = _ => replace e with (@Ok Cx (cc p 0)) by (symmetry; exact Ea) end. cbn [bind].
  match goal with |- bind ?e _ = _ => replace e with (@Ok (Z * nat) (u, (pos + 11)%nat)) by (symmetry; exact Z0) end. cbn [bind].
  match goal with |- bind ?e _ = _ => replace e with (@Ok Cx (cc p 1)) by (symmetry; exact Eb) end. cbn [bind].
  match goal with |- bind ?e _ = _ => replace e with (@Ok (Z * nat) (v, (pos + 11 + 11)%nat)) by (symmetry; exact Z1) end. cbn [bind].
  assert (F0 : [cof RF (fofz RF u)] = @ft 0 (pev Cx Czero (@emb (2 ^ 1) A))).
  { rewrite ft_single. f_equal. apply (pv_ext Cx Czero); intros k Hk; simpl in Hk; assert (k = 0)%nat by lia; subst k.
    unfold Poly.pev. rewrite pc_mkp by (simpl; lia). rewrite emb_c by (simpl; lia). symmetry. etransitivity; [exact C0|]. reflexivity. }
  assert (F1 : [cof RF (fofz RF v)] = @ft 0 (pod Cx Czero (@emb (2 ^ 1) A))).
  { rewrite ft_single. f_equal. apply (pv_ext Cx Czero); intros k Hk; simpl in Hk; assert (k = 0)%nat by lia; subst k.
    unfold pod. rewrite pc_mkp by (simpl; lia). rewrite emb_c by (simpl; lia). symmetry. etransitivity; [exact C1|]. reflexivity. }
  rewrite <- F0, <- F1. do 2 f_equal. change (11 * 2 ^ 1)%nat with 22%nat. lia.
Qed.

Lemma sub_pl h d l a b (pl : cpv (2 ^ S h)) i : (S (S h) <= 10)%nat -> (forall i, (i < 2 ^ S (S h))%nat -> 0 < d i) ->
  sub (S h) (rv (2 ^ S (S h)) d) = Node RF l a b -> l = ft pl -> (i < 2 ^ S h)%nat ->
  ev pl i = Cmul (Cof ((d (2 * i)%nat - d (2 * i + 1)%nat) / (2 * am2 d i))) (pt (S (S h)) (2 * i)).
Proof.
  intros Hh Hd Es El Hi.
  change (sub (S h) (rv (2 ^ S (S h)) d)) with
      (ltree RF exact_table (S h) (vspl0 RF (S h) (rv (2 ^ S (S h)) d)) (map (cconj RF) (vspl1 RF exact_table (S h) (rv (2 ^ S (S h)) d))) (map (cconj RF) (vspl0 RF (S h) (rv (2 ^ S (S h)) d)))) in Es.
  rewrite spl0_rv, rv_conj, ltree_sub in Es. change (fun i => (d (2 * i)%nat + d (2 * i + 1)%nat) / 2) with (am2 d) in Es.
  apply (f_equal (fun t => match t with Node _ l _ _ => l | _ => [] end)) in Es. cbv beta iota in Es.
  rewrite <- (nth_ft (S h) pl i Hi), <- El, <- Es. apply sub_l10; [exact Hh|exact Hd|exact Hi].
Qed.
Lemma sub_quad h d (p : cpv (2 ^ S (S h))) (pl : cpv (2 ^ S h)) (a : zpv (2 ^ S (S h))) (a0 a1 : zpv (2 ^ S h)) :
  (forall i, (i < 2 ^ S (S h))%nat -> 0 < d i) ->
  (forall i, (i < 2 ^ S h)%nat -> ev pl i = Cmul (Cof ((d (2 * i)%nat - d (2 * i + 1)%nat) / (2 * am2 d i))) (pt (S (S h)) (2 * i))) ->
  pev Cx Czero (@emb (2 ^ S (S h)) a) = emb a0 -> pod Cx Czero (@emb (2 ^ S (S h)) a) = emb a1 ->
  let p0 := (pev Cx Czero p : cpv (2 ^ S h)) in let p1 := (pod Cx Czero p : cpv (2 ^ S h)) in
  quad (S h) d p a = 2 * (Rsum (2 ^ S h) (fun i => am2 d i * sq (Csub (ev (cpadd p0 (cpmul (cpsub p1 (emb a1)) pl)) i) (ev (emb a0) i))) +
     Rsum (2 ^ S h) (fun i => hm2 d i * sq (Csub (ev p1 i) (ev (emb a1) i)))).
Proof.
  intros Hd Hpl Eev Eod p0 p1. rewrite <- (rsum_add _ _ _ _ _ _ _ RTheory).
  assert (P2 := pow2_pos (S h)). assert (Hd' : forall i, (i < 2 * 2 ^ S h)%nat -> 0 < d i) by (intros; apply Hd; simpl in *; lia).
  change (2 ^ S (S h))%nat with (2 * 2 ^ S h)%nat at 1. rewrite Rsum_pairs. rewrite <- Rsum_scal. apply rsum_ext. intros i Hi. 
  rewrite ev_add, ev_mul, ev_sub.
  replace (Csub (Cadd (ev p0 i) (Cmul (Csub (ev p1 i) (ev (emb a1) i)) (ev pl i))) (ev (emb a0) i)) with
    (Cadd (Csub (ev p0 i) (ev (emb a0) i)) (Cmul (Csub (ev p1 i) (ev (emb a1) i)) (ev pl i))).
  2: { generalize (ev p0 i) (ev (emb a0) i) (ev p1 i) (ev (emb a1) i) (ev pl i). intros [? ?] [? ?] [? ?] [? ?] [? ?]. apply Cx_eq; cx; ring. }
  rewrite Hpl by exact Hi. rewrite (hm2_val (2 ^ S h)) by assumption.
  rewrite (step_identity (d (2 * i)%nat) (d (2 * i + 1)%nat)); [|apply Hd'; lia|apply Hd'; lia|reflexivity|apply sq_pt].
  rewrite !ev_even, !ev_odd, Eev, Eod. fold p0 p1.
  generalize (ev p0 i) (ev p1 i) (ev (emb a0) i) (ev (emb a1) i) (pt (S (S h)) (2 * i)).
  intros [? ?] [? ?] [? ?] [? ?] [? ?]. unfold sq. cx. field.
Qed.

Lemma zero_bytes : forall i : nat, byte ((fun _ : nat => 0%Z) i).
Proof. intros i. unfold byte. lia. Qed.
Lemma near_sub : forall h lvl off d, (S h <= 10)%nat -> (forall i, (i < 2 ^ S h)%nat -> delta <= d i) ->
  (forall i, (i < 2 ^ S h)%nat -> d (2 ^ S h - 1 - i)%nat = d i) -> (off + h * 2 ^ (lvl + h) + 2 ^ h <= length T)%nat ->
  stored RF (2 ^ (lvl + h)) h T off (ntree RF sigma (sub h (rv (2 ^ S h) d))) ->
  Forall live_leaf (leaves (ntree RF sigma (sub h (rv (2 ^ S h) d)))) -> near h lvl off d.
Proof.
  induction h as [|h IH]; intros lvl off d Hh Hd Hs LT St GL.
  - apply near_base; [intros i Hi; specialize (Hd i Hi); lra| |simpl in LT; lia|exact St|exact GL]. exact (Hs 0%nat ltac:(simpl; lia)).
  - assert (Hdp : forall i, (i < 2 ^ S (S h))%nat -> 0 < d i) by (intros i Hi; specialize (Hd i Hi); lra).
    destruct (sub_node _ zero_bytes h d Hh Hdp Hs) as [l [pl [Es [Hl [Sam Shm]]]]].
    assert (Epl := fun Ll i => sub_pl h d l _ _ pl i Hh Hdp Es (proj1 (Hl Ll))).
    rewrite Es in St, GL. cbn [ntree stored] in St. cbn [ntree P_tree.leaves] in GL. destruct St as [Ll [Nl [Sa Sb]]].
    apply Forall_app in GL. destruct GL as [Ga Gb]. destruct (Hl Ll) as [El [Hpl Hl1]]. clear Hl. specialize (Epl Ll).
    assert (E2 : (2 ^ S (S h) = 2 * 2 ^ S h)%nat) by reflexivity. assert (E3 : (2 ^ S h = 2 * 2 ^ h)%nat) by reflexivity.
    assert (Ew : (2 ^ (lvl + S h) = 2 ^ (S lvl + h))%nat) by (f_equal; lia).
    assert (Ew2 : (2 ^ S h <= 2 ^ (lvl + S h))%nat) by (apply Nat.pow_le_mono_r; lia).
    assert (Da : near h (S lvl) (off + 2 ^ (lvl + S h)) (am2 d)).
    { apply (IH (S lvl) _ (am2 d)); [lia|intros i Hi; apply (am2_low _ zero_bytes _ (2 ^ S h)); [exact Hi|intros; apply Hd; lia]|exact Sam| | |exact Ga].
      - rewrite <- Ew. simpl Nat.mul in LT. lia.
      - rewrite Ew in Sa |- *. exact Sa. }
    assert (Db : near h (S lvl) (off + 2 ^ (lvl + S h) + 2 ^ h) (hm2 d)).
    { apply (IH (S lvl) _ (hm2 d)); [lia|intros i Hi; apply (hm2_low _ zero_bytes _ Hdelta (2 ^ S h)); [exact Hi|intros; apply Hd; lia]|exact Shm| | |exact Gb].
      - rewrite <- Ew. simpl Nat.mul in LT. lia.
      - rewrite Ew in Sb |- *. exact Sb. }
    intros p pos M Hp HM BM. rewrite S_INR in BM.
    assert (H0 : herm (pev Cx Czero p : cpv (2 ^ S h))) by (apply real_herm, real_pev, Hp).
    assert (H1 : herm (pod Cx Czero p : cpv (2 ^ S h))) by (apply real_herm, real_pod, Hp).
    assert (C0 : forall k, (k < 2 ^ S h)%nat -> Rabs (fst (cc (pev Cx Czero p : cpv (2 ^ S h)) k)) <= M) by (intros k Hk; unfold Poly.pev; rewrite pc_mkp by exact Hk; apply HM; lia).
    assert (C1 : forall k, (k < 2 ^ S h)%nat -> Rabs (fst (cc (pod Cx Czero p : cpv (2 ^ S h)) k)) <= M) by (intros k Hk; unfold pod; rewrite pc_mkp by exact Hk; apply HM; lia).
    destruct (Db _ pos M (real_pod _ _ Hp) C1 ltac:(lra)) as [bl1 [a1 [L1 [B1 [Q1 R1]]]]].
    set (p0 := (pev Cx Czero p : cpv (2 ^ S h))) in *. set (p1 := (pod Cx Czero p : cpv (2 ^ S h))) in *.
    assert (PN := INR_pow2_pos (S h)).
    assert (Q1' : Rsum (2 ^ S h) (fun i => hm2 d i * sq (Csub (ev p1 i) (ev (emb a1) i))) <= INR (2 ^ S h) * (2 * (sigma * sigma) * 112 * INR (2 ^ S h))).
    { eapply Rle_trans; [exact Q1|]. apply Rmult_le_compat_l; [lra|]. rewrite Rmult_comm. apply Rmult_le_compat_r; lra. }
    assert (SC := small_corr _ sigma zero_bytes delta K Hdelta HK0 HK h (hm2 d) p1 pl a1 ltac:(lia)
       ltac:(intros i Hi; apply (hm2_low _ zero_bytes _ Hdelta (2 ^ S h)); [exact Hi|intros; apply Hd; lia]) Hl1 Q1').
    set (pn := cpadd p0 (cpmul (cpsub p1 (emb a1)) pl)) in *.
    assert (Rn : creal pn). { apply (herm_real (S h)); [lia|]; unfold pn; apply herm_add; [assumption|]; apply herm_mul; [|assumption]; apply herm_sub; [assumption|apply herm_emb]. }
    assert (Cn : forall k, (k < 2 ^ S h)%nat -> Rabs (fst (cc pn k)) <= M + K).
    { intros k Hk. unfold pn. unfold Poly.padd. rewrite pc_mkp by exact Hk. assert (B0 := C0 k Hk). assert (Bn := SC k Hk). revert B0 Bn. generalize (cc p0 k) (cc (cpmul (cpsub p1 (emb a1)) pl) k). intros [x y] [u v]. cbn. intros A B.
      eapply Rle_trans; [apply Rabs_triang|]. lra. }
    destruct (Da pn (pos + 11 * 2 ^ S h)%nat (M + K) Rn Cn ltac:(lra)) as [bl0 [a0 [L0 [B0 [Q0 R0]]]]].
    destruct (emb_pint (S h) a0 a1) as [a Ea].
    assert (Eev : pev Cx Czero (@emb (2 ^ S (S h)) a) = emb a0) by (rewrite Ea; apply pev_pint).
    assert (Eod : pod Cx Czero (@emb (2 ^ S (S h)) a) = emb a1) by (rewrite Ea; apply pod_pint).
    exists (bl1 ++ bl0), a. split; [rewrite app_length; lia|]. split; [apply Forall_app; split; assumption|]. split.
    + rewrite (sub_quad h d p pl a a0 a1 Hdp Epl Eev Eod). fold p0 p1 pn. replace (INR (2 ^ S (S h))) with (2 * INR (2 ^ S h)) by (rewrite E2, mult_INR; reflexivity). lra.
    + intros fuel g Hfuel Hg Pt. apply pattern_app in Pt. destruct Pt as [Pt1 Pt0]. rewrite L1 in Pt0.
      rewrite Eev, Eod. replace (pos + 11 * 2 ^ S (S h))%nat with (pos + 11 * 2 ^ S h + 11 * 2 ^ S h)%nat by lia.
      apply (node_run fuel g h lvl off l p0 p1 pl pos a0 a1 (pos + 11 * 2 ^ S h)); [lia|simpl Nat.mul in LT; lia|exact Ll|exact Nl|exact El|apply R1; assumption|apply R0; assumption].
Qed.
End Near.

(** ** the root *)
Section Root.
Variable h : nat.
Notation lg := (S h).
Hypothesis Hlg : (lg <= 10)%nat.
Variables f g F_ G_ : list Z.
Notation N := (2 ^ lg)%nat.
Hypotheses (Lf : length f = N) (Lg : length g = N) (LF : length F_ = N) (LG : length G_ = N).
Hypothesis HN : ntru N f g F_ G_.
Hypothesis HGS : gs_norm lg f g <= 16823.
Hypotheses (BF : Forall (fun x => Z.abs x <= 27000)%Z F_) (BG : Forall (fun x => Z.abs x <= 27000)%Z G_).
Notation zl a := (ofl Z 0%Z N a).

Lemma root_near smin (T : list Cx) (sigma m : R) c pos : 0 < sigma < 1684 / 10 -> 127 / 100 <= smin -> 0 < m <= 2 * (sigma * sigma) * 112 ->
  Forall canon c -> ((lg + 1) * N <= length T)%nat ->
  stored RF N lg T 0 (ntree RF sigma (root_tree lg f g F_ G_)) -> Forall (live_leaf smin sigma m) (leaves (ntree RF sigma (root_tree lg f g F_ G_))) ->
  exists bl (a0 a1 : zpv N), length bl = (2 * N)%nat /\ Forall (fun b => b = 0 \/ b = 1)%Z bl /\
    IZR (sqnorm (Poly.pl Z N (sv0 lg g G_ c a0 a1)) + sqnorm (Poly.pl Z N (sv1 lg f F_ a0 a1))) <= INR N * (m / 2) /\
    forall fuel rng, (1 <= fuel)%nat -> (forall i, byte (rng i)) -> pattern rng pos bl ->
      ff_sampling RF exact_table fuel lg 0 (ft (tp0 lg F_ c)) (ft (tp1 lg f c)) T 0 smin rng pos = Ok (ft (emb a0), ft (emb a1), (pos + 11 * (2 * N))%nat).
Proof.
  intros Hs Hsm Hm Hc LT St GL. rewrite (root_tree_node h f g F_ G_ HN) in St, GL. cbn [ntree stored] in St. cbn [ntree P_tree.leaves] in GL. destruct St as [Ll [Nl [Sa Sb]]].
  apply Forall_app in GL. destruct GL as [Ga Gb].
  assert (Dp : forall i, 0 < dd lg f g i) by (intros i; eapply dd_pos; eassumption). assert (Q := qq_pos).
  assert (Hsym : forall i, (i < N)%nat -> wv h f g F_ G_ (N - 1 - i) = Cconj (wv h f g F_ G_ i)).
  { intros i Hi. unfold wv. rewrite !ev_compl by exact Hi. rewrite Cconj_add, !Cconj_mul. reflexivity. }
  destruct (herm_list lg _ Hlg Ll) as [pl [El Hpl]].
  { intros i Hi. assert (PN := pow2_pos lg). etransitivity; [apply root_l10; (assumption || lia)|]. etransitivity; [|symmetry; apply f_equal; apply root_l10; assumption]. rewrite Hsym by exact Hi. rewrite dd_sym by exact Hi.
    generalize (Dp i). generalize (dd lg f g i) (wv h f g F_ G_ i). intros d [u v] P. apply Cx_eq; cx; field; lra. }
  assert (Symo : forall i, (i < N)%nat -> ddo lg f g (N - 1 - i) = ddo lg f g i) by (intros i Hi; unfold ddo; rewrite dd_sym by exact Hi; reflexivity).
  assert (EN : (2 ^ S h = 2 * 2 ^ h)%nat) by reflexivity.
  assert (HKK : 2 * (sigma * sigma) * 112 * 1024 <= 27400 * 27400 * (87 / 10)) by nra.
  assert (Da : near smin T 27400 m h 1 (0 + N) (dd lg f g)).
  { apply (near_sub smin T sigma Hsm (87 / 10) 27400 m ltac:(lra) ltac:(lra) HKK Hm h 1 _ (dd lg f g)); [exact Hlg|exact (dd_lower h Hlg f g F_ G_ Lf Lg LF LG HN HGS)|apply dd_sym| |exact Sa|exact Ga].
    change (1 + h)%nat with lg. simpl Nat.mul in LT. nia. }
  assert (Db : near smin T 27400 m h 1 (0 + N + 2 ^ h) (ddo lg f g)).
  { apply (near_sub smin T sigma Hsm (87 / 10) 27400 m ltac:(lra) ltac:(lra) HKK Hm h 1 _ (ddo lg f g)); [exact Hlg|exact (ddo_lower h Hlg f g F_ G_ Lf Lg LF LG HN HGS)|exact Symo| |exact Sb|exact Gb].
    change (1 + h)%nat with lg. simpl Nat.mul in LT. nia. }
  assert (Bc : Forall (fun x => Z.abs x <= 12289)%Z c) by (eapply Forall_impl; [|exact Hc]; intros x Hx; unfold canon, q in Hx; cbv beta in *; lia).
  assert (Zn : (Z.of_nat N <= 1024)%Z). { change 1024%Z with (Z.of_nat (2 ^ 10)). apply inj_le, Nat.pow_le_mono_r; lia. }
  assert (Mf : Forall (fun x => Z.abs x <= 27000)%Z f).
  { rewrite Forall_forall. intros x Hx. assert (X := sqnorm_coeff _ _ Hx). assert (Y := sqnorm_pos g). 
    assert (M : IZR (sqnorm f + sqnorm g) <= gs_norm lg f g) by apply Rmax_l. assert (M' : (sqnorm f + sqnorm g <= 16823)%Z) by (apply le_IZR; lra). nia. }
  assert (IB : forall b k, (k < N)%nat -> Forall (fun x => Z.abs x <= 27000)%Z b -> Rabs (fst (cc (cpmul (kq lg) (cpmul (emb (zl c)) (cpopp (emb (zl b))))) k)) <= 27648000).
  { intros b k Hk Hb. apply Rle_trans with (1 := int_coef lg c b 12289 27000 k Hk ltac:(lia) ltac:(lia) Bc Hb). apply IZR_le in Zn. rewrite mult_IZR. change (IZR (12289 * 27000)) with 331803000. lra. }
  assert (C0 : forall k, (k < N)%nat -> Rabs (fst (cc (tp0 lg F_ c) k)) <= 27648000) by (intros k Hk; apply IB; assumption).
  assert (C1 : forall k, (k < N)%nat -> Rabs (fst (cc (tp1 lg f c) k)) <= 27648000) by (intros k Hk; unfold tp1; rewrite cc_opp by exact Hk; apply IB; assumption).
  assert (H0 := herm_tp0 h F_ c). assert (H1 := herm_tp1 h f c).
  assert (Hh10 : INR h <= 10). { replace 10 with (INR 10) by (rewrite INR_IZR_INZ; reflexivity). apply le_INR. lia. } assert (Hh0 := pos_INR h).
  destruct (Db (tp1 lg f c) pos 27648000 (herm_real lg _ Hlg H1) C1 ltac:(nra)) as [bl1 [a1 [L1 [B1 [Q1 R1]]]]].
  assert (PN := INR_pow2_pos lg).
  assert (Q1' : Rsum N (fun i => ddo lg f g i * sq (Csub (ev (tp1 lg f c) i) (ev (emb a1) i))) <= INR N * (2 * (sigma * sigma) * 112 * INR N)).
  { eapply Rle_trans; [exact Q1|]. apply Rmult_le_compat_l; [lra|]. rewrite Rmult_comm. apply Rmult_le_compat_r; lra. }
  assert (SC := root_corr h Hlg f g F_ G_ Lf Lg LF LG HN BF BG sigma c pl a1 Hs El Q1').
  set (pn := cpadd (tp0 lg F_ c) (cpmul (cpsub (tp1 lg f c) (emb a1)) pl)).
  assert (Rn : creal pn). { apply (herm_real lg); [exact Hlg|]; unfold pn; apply herm_add; [assumption|]; apply herm_mul; [|assumption]; apply herm_sub; [assumption|apply herm_emb]. }
  assert (Cn : forall k, (k < N)%nat -> Rabs (fst (cc pn k)) <= 27648000 + 260000000).
  { intros k Hk. unfold pn. unfold Poly.padd. rewrite pc_mkp by exact Hk. assert (B0 := C0 k Hk). assert (Bn := SC k Hk). revert B0 Bn. generalize (cc (tp0 lg F_ c) k) (cc (cpmul (cpsub (tp1 lg f c) (emb a1)) pl) k). intros [x y] [u v]. cbn. intros A B.
    eapply Rle_trans; [apply Rabs_triang|]. lra. }
  destruct (Da pn (pos + 11 * N)%nat (27648000 + 260000000) Rn Cn ltac:(nra)) as [bl0 [a0 [L0 [B0 [Q0 R0]]]]].
  exists (bl1 ++ bl0), a0, a1. split; [rewrite app_length; lia|]. split; [apply Forall_app; split; assumption|]. split.
  - rewrite <- (root_quad h Hlg f g F_ G_ HN pl c a0 a1 El). 
    assert (E : Rsum N (fun i => let x0 := Csub (ev (tp0 lg F_ c) i) (ev (emb a0) i) in let x1 := Csub (ev (tp1 lg f c) i) (ev (emb a1) i) in
        dd lg f g i * sq (Cadd x0 (Cmul x1 (ev pl i))) + ddo lg f g i * sq x1) =
      Rsum N (fun i => dd lg f g i * sq (Csub (ev pn i) (ev (emb a0) i))) + Rsum N (fun i => ddo lg f g i * sq (Csub (ev (tp1 lg f c) i) (ev (emb a1) i)))).
    { rewrite <- (rsum_add _ _ _ _ _ _ _ RTheory). apply rsum_ext. intros i Hi. cbv zeta. f_equal. f_equal. f_equal. unfold pn. rewrite ev_add, ev_mul, ev_sub.
      generalize (ev (tp0 lg F_ c) i) (ev (emb a0) i) (ev (tp1 lg f c) i) (ev (emb a1) i) (ev pl i). intros [? ?] [? ?] [? ?] [? ?] [? ?]. apply Cx_eq; cx; ring. }
    rewrite E. apply Rmult_le_reg_r with (INR N); [exact PN|]. unfold Rdiv at 1. rewrite Rmult_assoc, Rinv_l, Rmult_1_r by lra. lra.
  - intros fuel rng Hfu Hg Pt. apply pattern_app in Pt. destruct Pt as [Pt1 Pt0]. rewrite L1 in Pt0.
    replace (pos + 11 * (2 * N))%nat with (pos + 11 * N + 11 * N)%nat by lia.
    refine (node_run smin T fuel rng h 0 0 _ (tp0 lg F_ c) (tp1 lg f c) pl pos a0 a1 (pos + 11 * N)%nat _ Hlg _ Ll Nl El _ _); [simpl Nat.mul in LT; nia|apply R1; assumption|apply R0; assumption].
Qed.
End Root.

(** ** signing *)
Definition block (b : Z) : list Z := repeat 255%Z 9 ++ [b; 0%Z].
Lemma pattern_block rng bl : forall pos, (forall i, (i < length (flat_map block bl))%nat -> rng (pos + i)%nat = nth i (flat_map block bl) 0%Z) -> pattern rng pos bl.
Proof.
  induction bl as [|b bl IH]; intros pos H k Hk; [simpl in Hk; lia|]. cbn [flat_map] in H. rewrite app_length in H. change (length (block b)) with 11%nat in H.
  destruct k as [|k].
  - rewrite Nat.mul_0_r, Nat.add_0_r. cbn [nth]. split; [|split].
    + intros j Hj. rewrite H by lia. rewrite app_nth1 by (cbn; lia). unfold block. rewrite app_nth1 by (cbn; lia). apply (nth_repeat 255%Z 9) || (rewrite (nth_indep _ 0%Z 255%Z) by (cbn; lia); apply nth_repeat).
    + rewrite H by lia. reflexivity.
    + rewrite H by lia. reflexivity.
  - assert (P : pattern rng (pos + 11) bl).
    { apply IH. intros i Hi. rewrite <- Nat.add_assoc. rewrite H by lia. rewrite app_nth2 by (cbn; lia). f_equal. change (length (block b)) with 11%nat. lia. }
    specialize (P k ltac:(simpl in Hk; lia)). cbn [nth]. replace (pos + 11 * S k)%nat with (pos + 11 + 11 * k)%nat by lia. exact P.
Qed.
Lemma block_len bl : length (flat_map block bl) = (11 * length bl)%nat.
Proof. induction bl as [|b bl IH]; [reflexivity|]. cbn [flat_map length]. rewrite app_length, IH. change (length (block b)) with 11%nat. lia. Qed.
Lemma block_bytes bl : Forall (fun b => b = 0 \/ b = 1)%Z bl -> bytes (flat_map block bl).
Proof.
  induction 1 as [|b bl Hb _ IH]; [constructor|]. cbn [flat_map]. apply Forall_app. split; [|exact IH]. unfold block.
  apply Forall_app. split; [repeat constructor; unfold byte; lia|]. constructor; [unfold byte; lia|]. constructor; [unfold byte; lia|constructor].
Qed.

Lemma tot_sq s : (16384 * (tot s - 9 * Z.of_nat (length s)) <= sqnorm s)%Z.
Proof.
  unfold tot, sqnorm. induction s as [|x s IH]; [simpl; lia|].
  cbn [fold_right length]. rewrite Nat2Z.inj_succ. unfold enc_len at 1.
  assert (X : (128 * (Z.abs x / 128) <= Z.abs x)%Z) by (apply Z.mul_div_le; lia).
  assert (X0 : (0 <= Z.abs x / 128)%Z) by (apply Z.div_pos; lia).
  assert (Y : (Z.abs x * Z.abs x = x * x)%Z) by (pose proof (Z.abs_square x); nia).
  set (e := (Z.abs x / 128)%Z) in *. assert (128 * e * (128 * e) <= Z.abs x * Z.abs x)%Z by (apply Z.mul_le_mono_nonneg; lia).
  assert (e <= e * e)%Z by nia. lia.
Qed.
Lemma compress_live lg s sig : falcon_lg lg -> (sig_bytes lg <= length sig)%nat -> length s = (2 ^ lg)%nat -> (sqnorm s <= 8411 * 2 ^ Z.of_nat lg)%Z ->
  exists e, compress_sig lg s sig = Ok (true, e) /\ length e = length sig.
Proof.
  intros Hlg Ls L2 Hb. assert (T := tot_sq s). rewrite L2 in T.
  assert (B : (tot s <= 14 * 2 ^ Z.of_nat lg /\ tot s < body_len lg)%Z).
  { destruct Hlg as [->| ->]; [change (Z.of_nat (2 ^ 9)) with 512%Z in T; change (2 ^ Z.of_nat 9)%Z with 512%Z in *; change (body_len 9) with 5000%Z
                              |change (Z.of_nat (2 ^ 10)) with 1024%Z in T; change (2 ^ Z.of_nat 10)%Z with 1024%Z in *; change (body_len 10) with 9912%Z]; lia. }
  destruct (sig_dims lg Hlg) as (D1 & D2 & D3 & D4).
  destruct (compress_ok lg s (repeat 0%Z (sig_bytes lg)) Hlg L2 ltac:(rewrite repeat_length; lia)) as [H1 _]. destruct (H1 (proj1 B)) as (body & E & _ & Lb & _). clear H1.
  rewrite (proj2 (Z.ltb_lt _ _) (proj2 B)) in E.
  destruct (compress_split lg s _ _ _ Hlg ltac:(rewrite repeat_length; apply le_n) E) as [bd [Lbd [_ H]]]. specialize (H sig Ls). eexists. split; [exact H|].
  rewrite !app_length, firstn_length, skipn_length, Lbd. lia.
Qed.

Section Key.
Variable lg : nat.
Hypothesis Hlg : falcon_lg lg.
Notation N := (2 ^ lg)%nat.
Variables f g F_ G_ : list Z.
Hypotheses (Lf : length f = N) (Lg : length g = N) (LF : length F_ = N) (LG : length G_ = N).
Hypothesis HN : ntru N f g F_ G_.
Hypothesis HGS : gs_norm lg f g <= 16822.
Hypotheses (BF : Forall (fun x => Z.abs x <= 27000)%Z F_) (BG : Forall (fun x => Z.abs x <= 27000)%Z G_).

Lemma sigma_ratio : 127 / 100 <= sigma_min RF lg /\ 16822 * (sigma_min RF lg * sigma_min RF lg) <= sigma_value RF lg * sigma_value RF lg.
Proof. destruct Hlg as [->| ->]; [rewrite sigma_9|rewrite sigma_10]; unfold sigma_min, flit; cbn; lra. Qed.
Lemma root_live : Forall (live_leaf (sigma_min RF lg) (sigma_value RF lg) 16822) (leaves (ntree RF (sigma_value RF lg) (root_tree lg f g F_ G_))).
Proof.
  assert (H1 : (1 <= lg <= 10)%nat) by (destruct Hlg as [->| ->]; lia).
  rewrite ntree_leaves. rewrite Forall_forall. intros x Hx. apply in_map_iff in Hx. destruct Hx as [y [<- Hy]].
  assert (RL := root_leaves lg ltac:(lia) f g F_ G_ Lf Lg LF LG HN ltac:(lia)). rewrite Forall_forall in RL. destruct (RL y Hy) as [R0 [R1 [R2 R3]]].
  assert (R := leaf_range lg (gs_norm lg f g) (fst y) Hlg R1 (conj (inv_bound _ _ _ qq_pos R1 R2 R3) R3) ltac:(lra)).
  destruct sigma_ratio as [S1 S2]. assert (S3 := sigma_small lg Hlg).
  unfold live_leaf, nleaf. cbn [fst cof].
  change (sigma_min RF lg <= sigma_value RF lg / sqrt (fst y) <= 18205 / 10000 /\ sigma_value RF lg * sigma_value RF lg <= 16822 * (sigma_value RF lg / sqrt (fst y) * (sigma_value RF lg / sqrt (fst y)))).
  assert (Hi : sigma_value RF lg / sqrt (fst y) <= 18205 / 10000). { revert R. unfold leaf_hi. destruct Hlg as [->| ->]; cbn [Nat.eqb]; lra. }
  clear R. change (fst y) with (fst y : R) in *. set (d := fst y : R) in *. set (s := sigma_value RF lg : R) in *. set (sm := sigma_min RF lg : R) in *. clearbody d s sm.
  assert (D1 : d <= 16822) by lra. assert (Q0 := sqrt_lt_R0 d R1). assert (SS := sqrt_sqrt d ltac:(lra)). set (r := sqrt d) in *. clearbody r.
  assert (E : s / r * r = s) by (field; lra). set (l := s / r) in *. clearbody l.
  assert (Pl : 0 < l) by nra. 
  assert (K : s * s = l * l * d) by (rewrite <- SS, <- E; ring).
  split; [split; [|exact Hi]|rewrite K; nra].
  destruct (Rle_or_lt sm l) as [|C]; [assumption|]. exfalso. assert (l * l < sm * sm) by nra. assert (l * l * d <= l * l * 16822) by nra. lra.
Qed.

Lemma sign_bt_live xof sfuel0 B T0 T msg salt c sig pos : (forall a, byte_stream (xof a)) -> length salt = 40%nat ->
  (forall sfuel, (sfuel0 <= sfuel)%nat -> hash_to_point sfuel xof lg salt msg (repeat 0%Z N) = Ok c) -> length c = N -> Forall canon c ->
  (sig_bytes lg <= length sig)%nat -> ((lg + 1) * N <= length T0)%nat ->
  compute_matrix_B RF exact_table lg f g F_ G_ = Ok B -> compute_falcon_tree RF exact_table lg B T0 = Ok T ->
  exists bs, length bs = (22 * N)%nat /\ bytes bs /\
    forall rng fuel sfuel, byte_stream rng -> bytes_at rng pos 40 = salt -> bytes_at rng (pos + 40) (22 * N) = bs -> (1 <= fuel)%nat -> (1 <= sfuel)%nat -> (sfuel0 <= sfuel)%nat ->
    exists sig', sign_bt RF exact_table fuel sfuel xof lg B T msg sig rng pos = Ok (sig', (pos + 40 + 22 * N)%nat).
Proof.
  intros Hx Lsa Hh Lc Hc Ls LT HB HT. assert (H1 : (1 <= lg <= 10)%nat) by (destruct Hlg as [->| ->]; lia). assert (H10 : (lg <= 10)%nat) by lia.
  rewrite (matrix_B_ok lg H10 f g F_ G_ Lf Lg LF LG) in HB. apply (f_equal (fun r => match r with Ok v => v | _ => [] end)) in HB. cbv beta iota in HB. subst B.
  destruct (tree_ok lg f g F_ G_ T0 H1 Lf Lg LF LG HN LT) as [T' [E [L St]]].
  pose proof (eq_trans (eq_sym HT) E) as ET. apply (f_equal (fun r => match r with Ok v => v | _ => [] end)) in ET. cbv beta iota in ET. subst T'. clear E.
  assert (LT' : ((lg + 1) * N <= length T)%nat) by (change (list (D RF * D RF)) with (list Cx) in L; rewrite L; exact LT).
  assert (RL := root_live). destruct sigma_ratio as [S1 S2]. assert (S3 := sigma_small lg Hlg).
  assert (S4 : 0 < 16822 <= 2 * (sigma_value RF lg * sigma_value RF lg) * 112).
  { split; [lra|]. set (sm := sigma_min RF lg : R) in *. set (s := sigma_value RF lg : R) in *. clearbody sm s. assert (1 <= sm * sm) by nra. lra. }
  assert (RN : exists bl (a0 a1 : zpv N), length bl = (2 * N)%nat /\ Forall (fun b => b = 0 \/ b = 1)%Z bl /\
    IZR (sqnorm (Poly.pl Z N (sv0 lg g G_ c a0 a1)) + sqnorm (Poly.pl Z N (sv1 lg f F_ a0 a1))) <= INR N * (16822 / 2) /\
    forall fuel rng, (1 <= fuel)%nat -> (forall i, byte (rng i)) -> pattern rng (pos + 40) bl ->
      ff_sampling RF exact_table fuel lg 0 (ft (tp0 lg F_ c)) (ft (tp1 lg f c)) T 0 (sigma_min RF lg) rng (pos + 40) = Ok (ft (emb a0), ft (emb a1), (pos + 40 + 11 * (2 * N))%nat)).
  { clear Hh Ls LT HT. assert (HGS' : gs_norm lg f g <= 16823) by lra. revert S1 S3 S4 RL St. clear S2 L HGS. generalize (sigma_value RF lg) (sigma_min RF lg). intros sg sm S1 S3 S4 RL St.
    assert (exists h, lg = S h) as [h Eh] by (exists (lg - 1)%nat; lia). clear Hlg. subst lg.
    exact (root_near h H10 f g F_ G_ Lf Lg LF LG HN HGS' BF BG sm T sg 16822 c (pos + 40) S3 S1 S4 Hc LT' St RL). }
  destruct RN as [bl [a0 [a1 [Lbl [Bbl [Nb Run]]]]]].
  exists (flat_map block bl). split; [rewrite block_len, Lbl; lia|]. split; [apply block_bytes; exact Bbl|].
  intros rng fuel sfuel Hr Hs Hbs Hf1 Hf2 Hf3. unfold sign_bt, rng_read. fold (bytes_at rng pos 40). rewrite Hs. rewrite Hh by exact Hf3. cbn [bind].
  rewrite target_ok by assumption. cbn [bind].
  replace (beta2_values lg) with (beta2 lg) by (destruct Hlg as [->| ->]; reflexivity).
  destruct fuel as [|fuel]; [lia|]. cbn [sign_loop].
  rewrite Run; [|exact Hf2|exact Hr|].
  2: { apply pattern_block. rewrite <- Hbs. intros i Hi. rewrite bytes_at_len in Hi. unfold bytes_at. 
       rewrite (nth_indep _ 0%Z (rng (pos + 40 + 0)%nat)) by (rewrite map_length, seq_length; exact Hi). rewrite (map_nth (fun i => rng (pos + 40 + i)%nat)). rewrite seq_nth by exact Hi. reflexivity. }
  cbn [bind]. rewrite vector_ok by assumption. cbn [bind]. rewrite !sqnorm_emb. cbn [bind].
  set (w0 := sv0 lg g G_ c a0 a1) in *. set (w1 := sv1 lg f F_ a0 a1) in *.
  assert (Zb : (sqnorm (Poly.pl Z N w0) + sqnorm (Poly.pl Z N w1) <= 8411 * 2 ^ Z.of_nat lg)%Z).
  { apply le_IZR. eapply Rle_trans; [exact Nb|]. rewrite mult_IZR. destruct Hlg as [->| ->]; [replace (INR (2 ^ 9)) with 512 by (rewrite INR_IZR_INZ; f_equal); change (IZR (2 ^ Z.of_nat 9)) with 512
    |replace (INR (2 ^ 10)) with 1024 by (rewrite INR_IZR_INZ; f_equal); change (IZR (2 ^ Z.of_nat 10)) with 1024]; lra. }
  assert (E5' : (sqnorm (Poly.pl Z _ w0) + sqnorm (Poly.pl Z _ w1) <= beta2 lg)%Z).
  { eapply Z.le_trans; [exact Zb|]. destruct Hlg as [->| ->]; vm_compute; discriminate. }
  destruct (fle RF _ _) eqn:E5.
  2: { exfalso. cbn in E5. revert E5. destruct (Rle_dec _ _) as [K|K]; [discriminate|]. intros _. apply K. rewrite <- plus_IZR. apply IZR_le. exact E5'. }
  assert (Bb2 : (beta2 lg <= 1000000000)%Z) by (destruct Hlg as [->| ->]; vm_compute; congruence).
  rewrite ifft_ok by exact H10. cbn [bind].
  rewrite round_ok; [|apply repeat_length|rewrite Forall_forall; intros x Hin; assert (X := sqnorm_coeff _ _ Hin); assert (Y := sqnorm_pos (Poly.pl Z (2 ^ lg) w0)); nia].
  cbn [bind]. assert (Y := sqnorm_pos (Poly.pl Z (2 ^ lg) w0)).
  destruct (compress_live lg (Poly.pl Z N w1) sig Hlg Ls (pl_length _ _ _) ltac:(lia)) as [e [Ec Le]]. rewrite Ec. cbn [bind].
  assert (41 <= sig_bytes lg)%nat by (destruct Hlg as [->| ->]; vm_compute; lia).
  rewrite wr_Ok by lia. cbn [bind]. rewrite wrs_ok; [|rewrite Lsa, upd_length; lia]. cbn [bind]. eexists. f_equal. f_equal. lia.
Qed.

Lemma sign_bt_can xof B T0 T msg salt c sig pos : (forall a, byte_stream (xof a)) -> length salt = 40%nat -> hashed (xof (salt ++ msg)) lg c ->
  (sig_bytes lg <= length sig)%nat -> ((lg + 1) * N <= length T0)%nat ->
  compute_matrix_B RF exact_table lg f g F_ G_ = Ok B -> compute_falcon_tree RF exact_table lg B T0 = Ok T ->
  exists bs sfuel0, length bs = (22 * N)%nat /\ bytes bs /\
    forall rng fuel sfuel, byte_stream rng -> bytes_at rng pos 40 = salt -> bytes_at rng (pos + 40) (22 * N) = bs -> (1 <= fuel)%nat -> (sfuel0 <= sfuel)%nat ->
    exists sig', sign_bt RF exact_table fuel sfuel xof lg B T msg sig rng pos = Ok (sig', (pos + 40 + 22 * N)%nat).
Proof.
  intros Hx Lsa Hh Ls LT HB HT. destruct (P_verifyx.hash_point_spec xof lg salt msg (Hx _)) as [H1 H2]. destruct (H2 c Hh) as [f0 F0].
  assert (E := F0 f0 (repeat 0%Z N) (le_n _) (repeat_length _ _)).
  assert (X : length c = N /\ Forall canon c).
  { destruct (H1 f0 (repeat 0%Z N) (repeat_length _ _)) as [[c' [E' [_ [Lc Hc]]]]|E']; [|congruence]. assert (c = c') by congruence. subst c'. split; assumption. }
  destruct X as [Lc Hc].
  destruct (sign_bt_live xof f0 B T0 T msg salt c sig pos Hx Lsa ltac:(intros sf Hsf; apply F0; [exact Hsf|apply repeat_length]) Lc Hc Ls LT HB HT) as [bs [Lb [Bb R]]].
  exists bs, (S f0). split; [exact Lb|]. split; [exact Bb|]. intros rng fuel sfuel Hr H3 H4 H5 H6. apply R; (assumption || lia).
Qed.

Lemma sign_can xof skey msg salt c sig : (forall a, byte_stream (xof a)) -> length salt = 40%nat -> hashed (xof (salt ++ msg)) lg c ->
  (sig_bytes lg <= length sig)%nat -> is_poly_invertible lg f = Ok true -> decode_skey lg skey (repeat 0%Z N) (repeat 0%Z N) (repeat 0%Z N) = Ok (true, (f, g, F_)) ->
  exists bs sfuel0, length bs = (22 * N)%nat /\ bytes bs /\
    forall rng fuel sfuel, byte_stream rng -> bytes_at rng 0 40 = salt -> bytes_at rng 40 (22 * N) = bs -> (1 <= fuel)%nat -> (sfuel0 <= sfuel)%nat ->
    exists sig', sign RF exact_table fuel sfuel xof lg skey msg sig rng = Ok (true, sig').
Proof.
  intros Hx Lsa Hh Ls HI HD. assert (H1 : (1 <= lg <= 10)%nat) by (destruct Hlg as [->| ->]; lia). assert (H10 : (lg <= 10)%nat) by lia.
  assert (Sf : Forall smallq f).
  { rewrite Forall_forall. intros x Hx0. assert (X := sqnorm_coeff _ _ Hx0). assert (Y := sqnorm_pos g). 
    assert (M : IZR (sqnorm f + sqnorm g) <= gs_norm lg f g) by apply Rmax_l. assert (M' : (sqnorm f + sqnorm g <= 16823)%Z) by (apply le_IZR; lra). unfold smallq. unfold q. nia. }
  assert (RG : Forall (fun x => -2147483648 <= x <= 2147483647)%Z G_). { refine (Forall_impl _ _ BG). intros x Hx0. cbv beta in Hx0. lia. }
  assert (LT : ((lg + 1) * N <= length (fresh RF (N * (lg + 1))))%nat). { change (fresh RF (N * (lg + 1))) with (repeat (c0 RF) (N * (lg + 1))). rewrite repeat_length. lia. }
  destruct (tree_ok lg f g F_ G_ (fresh RF (N * (lg + 1))) H1 Lf Lg LF LG HN LT) as [T [E [L St]]].
  destruct (sign_bt_can xof (Bex lg f g F_ G_) _ T msg salt c sig 0 Hx Lsa Hh Ls LT (matrix_B_ok lg H10 f g F_ G_ Lf Lg LF LG) E) as [bs [f0 [Lb [Bb R]]]].
  exists bs, f0. split; [exact Lb|]. split; [exact Bb|]. intros rng fuel sfuel Hr H3 H4 H5 H6.
  destruct (R rng fuel sfuel Hr H3 H4 H5 H6) as [sig' Es]. exists sig'. unfold sign. rewrite HD. cbn [bind negb].
  rewrite (recompute_G_ok lg f g F_ G_ (repeat 0%Z N) H10 Lf Lg LF LG (repeat_length _ _) HN RG); [|apply (invertible_nonzero lg f), (invertible_unit lg Hlg f Lf Sf HI)].
  cbn [bind]. rewrite matrix_B_ok by assumption. cbn [bind]. rewrite E. cbn [bind]. rewrite Es. reflexivity.
Qed.
End Key.

(** ** the example key *)
Import P_key P_verifyx.
Open Scope R_scope.
Lemma k_all : length kf = 512%nat /\ length kg = 512%nat /\ length kF = 512%nat /\ length kG = 512%nat /\ ntru 512 kf kg kF kG /\ gs_norm 9 kf kg <= 16822 /\
  Forall (fun x => Z.abs x <= 68)%Z kF /\ Forall (fun x => Z.abs x <= 68)%Z kG /\ is_poly_invertible 9 kf = Ok true /\
  (exists skey, length skey = 1281%nat /\ bytes skey /\ decode_skey 9 skey (repeat 0%Z 512) (repeat 0%Z 512) (repeat 0%Z 512) = Ok (true, (kf, kg, kF))) /\
  forall a, byte_stream (const_xof 7 a) /\ hashed (const_xof 7 a) 9 (repeat 7%Z 512).
Proof.
  destruct k_length as [L1 [L2 [L3 L4]]]. destruct (k_small 68 ltac:(lia)) as [_ [_ [K3 K4]]].
  repeat (split; [assumption || apply k_ntru || apply k_gs || apply k_inv || apply k_skey|]).
  intros a. split; [apply const_xof_ok; lia|apply (const_hashed 7 a 9); lia].
Qed.
Lemma map_nth_seq (l : list Z) (g : nat -> Z) s n : length l = n -> (forall i, (i < n)%nat -> g (s + i)%nat = nth i l 0%Z) -> map g (seq s n) = l.
Proof.
  intros L H. apply (list_ext 0%Z); [rewrite map_length, seq_length; lia|]. rewrite map_length, seq_length. intros i Hi.
  rewrite (nth_indep _ 0%Z (g 0%nat)) by (rewrite map_length, seq_length; exact Hi). rewrite map_nth, seq_nth by exact Hi. apply H. exact Hi.
Qed.
Lemma k_run : exists skey rng fuel sfuel sig', length skey = 1281%nat /\ bytes skey /\ byte_stream rng /\
  sign RF exact_table fuel sfuel (const_xof 7) 9 skey [1; 2; 3]%Z (repeat 0%Z 668) rng = Ok (true, sig').
Proof.
  destruct k_all as [L1 [L2 [L3 [L4 [HN [HG [B3 [B4 [HI [[skey [Ls [Bs HD]]] HX]]]]]]]]]].
  assert (W : forall l, Forall (fun x => Z.abs x <= 68)%Z l -> Forall (fun x => Z.abs x <= 27000)%Z l) by (intros l H; eapply Forall_impl; [|exact H]; intros x Hx; cbv beta in Hx; lia).
  destruct (sign_can 9 ltac:(left; reflexivity) kf kg kF kG L1 L2 L3 L4 HN HG (W _ B3) (W _ B4) (const_xof 7) skey [1; 2; 3]%Z (repeat 9%Z 40) (repeat 7%Z 512) (repeat 0%Z 668)
    ltac:(intros a; apply HX) (repeat_length _ _) ltac:(apply HX) ltac:(rewrite repeat_length; vm_compute; lia) HI HD) as [bs [sf [Lb [Bb R]]]].
  set (l := repeat 9%Z 40 ++ bs). assert (Bl : bytes l). { apply Forall_app. split; [|exact Bb]. repeat constructor; discriminate || reflexivity. }
  assert (Br : byte_stream (fun i => nth i l 0%Z)).
  { intros i. destruct (Nat.lt_ge_cases i (length l)) as [H|H]; [|rewrite nth_overflow by exact H; unfold byte; lia]. exact (proj1 (Forall_forall _ _) Bl _ (nth_In _ _ H)). }
  exists skey, (fun i => nth i l 0%Z), 1%nat, sf.
  destruct (R (fun i => nth i l 0%Z) 1%nat sf Br) as [sig' E]; [| |lia|lia|].
  - apply map_nth_seq; [apply repeat_length|]. intros i Hi. unfold l. apply app_nth1. rewrite repeat_length. exact Hi.
  - apply map_nth_seq; [exact Lb|]. intros i Hi. unfold l. rewrite app_nth2; rewrite repeat_length; [f_equal|]; lia.
  - exists sig'. split; [exact Ls|]. split; [exact Bs|]. split; [exact Br|exact E].
Qed.
