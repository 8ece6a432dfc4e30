(** P_norm.v -- the quadratic form sampled by ff_sampling is the squared norm of the signature vector. *)
From Verif Require Import Base Ring Poly Spec SpecR SpecS M_ff M_xform P_xform M_codec P_codec M_sig M_verify M_float M_exact P_exact M_samp M_fft M_ntru P_ntru M_tree P_tree P_brv P_cplx P_fft P_treex P_gs P_sign.
From Coq Require Import Ring_theory Ring Lra.
Open Scope R_scope.

(** ** polynomials with real coefficients *)
Definition creal {n} (p : cpv n) : Prop := forall k, (k < n)%nat -> snd (cc p k) = 0.
Definition herm {lg} (p : cpv (2 ^ lg)) : Prop := forall i, (i < 2 ^ lg)%nat -> ev p (2 ^ lg - 1 - i) = Cconj (ev p i).
Definition cpconj {n} (p : cpv n) : cpv n := mkp Cx n (fun k => Cconj (cc p k)).
Lemma ev_cpconj lg (p : cpv (2 ^ lg)) i : (i < 2 ^ lg)%nat -> ev (cpconj p) i = Cconj (ev p (2 ^ lg - 1 - i)).
Proof.
  intros Hi. unfold ev, reval. rewrite pt_compl by exact Hi. rewrite Csum_conj. apply rsum_ext. intros j Hj.
  unfold cpconj. rewrite pc_mkp by exact Hj. rewrite Cconj_mul, Cconj_pow, Cconj_invol. reflexivity.
Qed.
Lemma real_conj n (p : cpv n) : creal p -> cpconj p = p.
Proof.
  intros H. apply (pv_ext Cx Czero). intros k Hk. unfold cpconj. rewrite pc_mkp by exact Hk. apply Cx_eq; unfold Cconj; cbn [fst snd]; [reflexivity|]. rewrite H by exact Hk. ring.
Qed.
Lemma real_herm lg (p : cpv (2 ^ lg)) : creal p -> herm p.
Proof.
  intros H i Hi. assert (E := ev_cpconj lg p i Hi). rewrite (real_conj _ p H) in E. rewrite E, Cconj_invol. reflexivity.
Qed.
Lemma herm_real lg (p : cpv (2 ^ lg)) : (lg <= 10)%nat -> herm p -> creal p.
Proof.
  intros Hlg H. assert (E : cpconj p = p).
  { apply (ft_inj lg); [exact Hlg|]. unfold ft. apply tab_ext. intros i Hi. rewrite ev_cpconj by exact Hi. rewrite H by exact Hi. apply Cconj_invol. }
  intros k Hk. rewrite <- E at 1. unfold cpconj. rewrite pc_mkp by exact Hk. 
  assert (X := f_equal (fun p => snd (cc p k)) E). cbv beta in X. unfold cpconj in X. rewrite pc_mkp in X by exact Hk. unfold Cconj in *. cbn [fst snd] in *. lra.
Qed.
Lemma herm_add lg (p p' : cpv (2 ^ lg)) : herm p -> herm p' -> herm (cpadd p p').
Proof. intros H H' i Hi. rewrite !ev_add, H, H', Cconj_add by exact Hi. reflexivity. Qed.
Lemma herm_sub lg (p p' : cpv (2 ^ lg)) : herm p -> herm p' -> herm (cpsub p p').
Proof. intros H H' i Hi. rewrite !ev_sub, H, H', Cconj_sub by exact Hi. reflexivity. Qed.
Lemma herm_mul lg (p p' : cpv (2 ^ lg)) : herm p -> herm p' -> herm (cpmul p p').
Proof. intros H H' i Hi. rewrite !ev_mul, H, H', Cconj_mul by exact Hi. reflexivity. Qed.
Lemma herm_emb lg (p : zpv (2 ^ lg)) : herm (emb p).
Proof. intros i Hi. apply ev_compl. exact Hi. Qed.
Lemma real_pev n (p : cpv (2 * n)) : creal p -> creal (pev Cx Czero p).
Proof. intros H k Hk. unfold pev. rewrite pc_mkp by exact Hk. apply H. lia. Qed.
Lemma real_pod n (p : cpv (2 * n)) : creal p -> creal (pod Cx Czero p).
Proof. intros H k Hk. unfold pod. rewrite pc_mkp by exact Hk. apply H. lia. Qed.
Lemma herm_list lg (y : list Cx) : (lg <= 10)%nat -> length y = (2 ^ lg)%nat ->
  (forall i, (i < 2 ^ lg)%nat -> nth (2 ^ lg - 1 - i) y Czero = Cconj (nth i y Czero)) -> exists p : cpv (2 ^ lg), y = ft p /\ herm p.
Proof.
  intros Hlg Ly H. destruct (ft_surj lg y Hlg Ly) as [p ->]. exists p. split; [reflexivity|]. intros i Hi.
  specialize (H i Hi). assert (P := pow2_pos lg). rewrite !nth_ft in H by lia. exact H.
Qed.

(** ** the calls *)
Lemma calls_app fuel smin g a : forall b pos p pos', sampler_calls fuel smin g a pos p -> sampler_calls fuel smin g b p pos' ->
  sampler_calls fuel smin g (a ++ b) pos pos'.
Proof.
  induction a as [|c a IH]; intros b pos p pos' H1 H2; cbn [app sampler_calls] in *; [subst; exact H2|].
  destruct H1 as [p1 [E H1]]. exists p1. split; [exact E|]. exact (IH _ _ _ _ H1 H2).
Qed.
Lemma energy_app a b : energy (a ++ b) = energy a + energy b.
Proof. induction a as [|c a IH]; cbn [app energy fold_right]; [unfold energy; simpl; ring|]. change (fold_right _ 0 (a ++ b)) with (energy (a ++ b)). rewrite IH. unfold energy. cbn [fold_right]. ring. Qed.
(** every element twice *)
Definition twice {A} (l : list A) : list A := flat_map (fun x => [x; x]) l.
Lemma twice_app {A} (a b : list A) : twice (a ++ b) = twice a ++ twice b.
Proof. unfold twice. induction a as [|x a IH]; [reflexivity|]. cbn. rewrite IH. reflexivity. Qed.

Lemma rds_inv {A} (d : A) (l : list A) n : forall o v, rds l o n = Ok v -> length v = n /\ forall i, (i < n)%nat -> nth i v d = nth (o + i) l d.
Proof.
  induction n as [|n IH]; intros o v H; cbn [rds] in H.
  - injection H as <-. split; [reflexivity|]. intros i Hi. lia.
  - apply bind_Ok in H. destruct H as [x [Hx H]]. apply bind_Ok in H. destruct H as [xs [Hxs H]]. injection H as <-.
    apply rd_inv in Hx. destruct Hx as [_ Hx]. destruct (IH _ _ Hxs) as [Lx Nx]. split; [cbn [length]; lia|]. intros [|i] Hi; cbn [nth].
    + rewrite Nat.add_0_r. symmetry. apply Hx.
    + rewrite Nx by lia. f_equal. lia.
Qed.

Section Samp.
Variables (fuel : nat) (smin : R) (g : rng_t) (T : list Cx) (sigma : R).
Hypothesis Hsigma : sigma <> 0.

(** what is to be shown of a run on a subtree with leaf-squared-norms d *)
Definition sub_claim (h lvl off : nat) (d : nat -> R) (ls : list Cx) : Prop :=
  forall (p : cpv (2 ^ S h)) pos z0 z1 pos', creal p ->
  ff_sampling RF exact_table fuel h lvl (@ft h (pev Cx Czero p)) (@ft h (pod Cx Czero p)) T off smin g pos = Ok (z0, z1, pos') ->
  exists (a : zpv (2 ^ S h)) cs, z0 = @ft h (pev Cx Czero (@emb (2 ^ S h) a)) /\ z1 = @ft h (pod Cx Czero (@emb (2 ^ S h) a)) /\
    length cs = (2 ^ S h)%nat /\ sampler_calls fuel smin g cs pos pos' /\ map stddev cs = twice (rev (map (fun x : Cx => fst x) ls)) /\
    energy cs = / (2 * (sigma * sigma)) * (Rsum (2 ^ S h) (fun i => d i * sq (Csub (@ev (S h) p i) (@ev (S h) (emb a) i))) / INR (2 ^ S h)).

Lemma ff_node h lvl off (l : list Cx) da db la lb (p0 p1 pl : cpv (2 ^ S h)) pos z0 z1 pos' : (S h <= 10)%nat ->
  length l = (2 ^ S h)%nat -> (forall i, (i < 2 ^ S h)%nat -> nth (off + i) T Czero = nth i l Czero) -> l = ft pl ->
  sub_claim h (S lvl) (off + 2 ^ (lvl + S h)) da la -> sub_claim h (S lvl) (off + 2 ^ (lvl + S h) + 2 ^ h) db lb ->
  herm p0 -> herm p1 -> herm pl ->
  ff_sampling RF exact_table fuel (S h) lvl (ft p0) (ft p1) T off smin g pos = Ok (z0, z1, pos') ->
  exists (a0 a1 : zpv (2 ^ S h)) cs, z0 = ft (emb a0) /\ z1 = ft (emb a1) /\
    length cs = (2 * 2 ^ S h)%nat /\ sampler_calls fuel smin g cs pos pos' /\ map stddev cs = twice (rev (map (fun x : Cx => fst x) (la ++ lb))) /\
    energy cs = / (2 * (sigma * sigma)) * (Rsum (2 ^ S h) (fun i =>
      let x0 := Csub (ev p0 i) (ev (emb a0) i) in let x1 := Csub (ev p1 i) (ev (emb a1) i) in
      da i * sq (Cadd x0 (Cmul x1 (ev pl i))) + db i * sq x1) / INR (2 ^ S h)).
Proof.
  intros Hh Ll Hl El Ca Cb H0 H1 Hp H. cbn [ff_sampling] in H. rewrite half_pow2 in H. rewrite <- Nat.pow_add_r in H.
  assert (LF : @length Cx (fresh RF (2 ^ h)) = (2 ^ h)%nat) by apply repeat_length.
  assert (LF' : @length Cx (fresh RF (2 ^ S h)) = (2 ^ S h)%nat) by apply repeat_length.
  apply bind_Ok in H. destruct H as [lT [Er H]].
  assert (E : lT = ft pl).
  { destruct (rds_inv Czero (T : list Cx) _ _ _ Er) as [L1 N1]. rewrite <- El.
    apply (@list_ext Cx Czero); [rewrite Ll; exact L1|]. intros i Hi. change (i < @length Cx lT)%nat in Hi. assert (i < 2 ^ S h)%nat by (rewrite <- L1; exact Hi).
    etransitivity; [apply N1; assumption|]. apply Hl. assumption. }
  subst lT. rewrite split_ok in H by assumption. cbn [bind] in H.
  apply bind_Ok in H. destruct H as [[[zr0 zr1] pr] [Hr H]].
  apply Cb in Hr; [|apply (herm_real (S h)); assumption]. destruct Hr as [a1 [csr [-> [-> [Lr [Sr [Dr Er1]]]]]]].
  rewrite merge_ok in H by assumption. cbn [bind] in H. rewrite pint_eo in H.
  change (2 * 2 ^ h)%nat with (2 ^ S h)%nat in H.
  rewrite cpoly_sub_ok in H by assumption. cbn [bind] in H.
  rewrite cpoly_mul_ok in H by assumption. cbn [bind] in H.
  rewrite cpoly_add_ok in H by apply ft_length. cbn [bind] in H.
  set (pn := cpadd p0 (cpmul (cpsub p1 (emb a1)) pl)) in *.
  rewrite split_ok in H by assumption. cbn [bind] in H.
  apply bind_Ok in H. destruct H as [[[zl0 zl1] p'] [Hl' H]].
  apply Ca in Hl'; [|apply (herm_real (S h)); [assumption|]; unfold pn; apply herm_add; [assumption|]; apply herm_mul; [|assumption]; apply herm_sub; [assumption|apply herm_emb]].
  destruct Hl' as [a0 [csl [-> [-> [Lc [Sl [Dl El1]]]]]]].
  rewrite merge_ok in H by assumption. cbn [bind] in H. rewrite pint_eo in H. change (2 * 2 ^ h)%nat with (2 ^ S h)%nat in H.
  assert (X0 := f_equal (fun r => match r with Ok (a, _, _) => a | _ => [] end) H). assert (X1 := f_equal (fun r => match r with Ok (_, a, _) => a | _ => [] end) H).
  assert (X2 := f_equal (fun r => match r with Ok (_, _, a) => a | _ => O end) H). cbv beta iota in X0, X1, X2. clear H. subst p'.
  exists a0, a1, (csr ++ csl). split; [symmetry; exact X0|]. split; [symmetry; exact X1|]. split; [rewrite app_length, Lr, Lc; lia|].
  split; [exact (calls_app _ _ _ _ _ _ _ _ Sr Sl)|]. split.
  { rewrite map_app, Dr, Dl, map_app, rev_app_distr, twice_app. reflexivity. }
  rewrite energy_app, Er1, El1. cbv zeta. rewrite (rsum_add _ _ _ _ _ _ _ RTheory).
  assert (Ep : Rsum (2 ^ S h) (fun i => da i * sq (Csub (ev pn i) (ev (emb a0) i))) =
    Rsum (2 ^ S h) (fun i => da i * sq (Cadd (Csub (ev p0 i) (ev (emb a0) i)) (Cmul (Csub (ev p1 i) (ev (emb a1) i)) (ev pl i))))).
  { apply rsum_ext. intros i Hi. unfold pn. rewrite ev_add, ev_mul, ev_sub. f_equal. f_equal.
    generalize (ev p0 i) (ev (emb a0) i) (ev p1 i) (ev (emb a1) i) (ev pl i). intros [? ?] [? ?] [? ?] [? ?] [? ?]. apply Cx_eq; cx; ring. }
  rewrite Ep. unfold Rdiv. ring.
Qed.

(** ** subtrees *)
Lemma ev0 (p : cpv (2 ^ 0)) : ev p 0 = cc p 0.
Proof. unfold ev, reval. cbn [rsum Nat.pow rpow]. generalize (cc p 0). intros [x y]. apply Cx_eq; cbn; ring. Qed.
Lemma sub_base lvl off d : (forall i, (i < 2 ^ 1)%nat -> 0 < d i) -> d 1%nat = d 0%nat ->
  stored RF (2 ^ (lvl + 0)) 0 T off (ntree RF sigma (sub 0 (rv (2 ^ 1) d))) ->
  sub_claim 0 lvl off d (leaves (ntree RF sigma (sub 0 (rv (2 ^ 1) d)))).
Proof.
  intros Hd Es St p pos z0 z1 pos' Hp H. cbn [sub ntree stored P_tree.leaves] in *. rewrite rv_nth in St by (simpl; lia). rewrite rv_nth by (simpl; lia).
  assert (D0 := Hd 0%nat ltac:(simpl; lia)).
  cbn [ff_sampling] in H. apply bind_Ok in H. destruct H as [x [Hx H]]. apply rd_inv in Hx. destruct Hx as [_ Hx]. specialize (Hx (c0 RF)).
  assert (Ex : fst x = sigma / sqrt (d 0%nat)) by (rewrite <- Hx, St; reflexivity). clear Hx St. 
  apply bind_Ok in H. destruct H as [a [Ha H]]. apply rd_inv in Ha. destruct Ha as [_ Ha]. specialize (Ha Czero).
  apply bind_Ok in H. destruct H as [[u p1] [Hu H]]. apply bind_Ok in H. destruct H as [b [Hb H]]. apply rd_inv in Hb. destruct Hb as [_ Hb]. specialize (Hb Czero).
  apply bind_Ok in H. destruct H as [[v p2] [Hv H]].
  assert (Ea : a = cc p 0). { rewrite <- Ha. etransitivity; [apply (nth_ft 0); simpl; lia|]. rewrite ev0. unfold pev. rewrite pc_mkp by (simpl; lia). reflexivity. }
  assert (Eb : b = cc p 1). { rewrite <- Hb. etransitivity; [apply (nth_ft 0); simpl; lia|]. rewrite ev0. unfold pod. rewrite pc_mkp by (simpl; lia). reflexivity. }
  assert (E0 := f_equal (fun r => match r with Ok (a, _, _) => a | _ => [] end) H). assert (E1 := f_equal (fun r => match r with Ok (_, a, _) => a | _ => [] end) H).
  assert (E2 := f_equal (fun r => match r with Ok (_, _, a) => a | _ => O end) H). cbv beta iota in E0, E1, E2. clear H. subst p2.
  assert (exists A : zpv (2 ^ 1), pc Z 0%Z A 0 = u /\ pc Z 0%Z A 1 = v) as [A [A0 A1]] by (exists (ofl Z 0%Z 2 [u; v]); split; reflexivity).
  exists A, [(fst a, fst x, u); (fst b, fst x, v)].
  assert (C0 : cc (@emb (2 ^ 1) A) 0 = Cz u) by (rewrite emb_c by (simpl; lia); rewrite A0; reflexivity).
  assert (C1 : cc (@emb (2 ^ 1) A) 1 = Cz v) by (rewrite emb_c by (simpl; lia); rewrite A1; reflexivity).
  split; [rewrite <- E0; rewrite ft_single; f_equal; apply (pv_ext Cx Czero); intros k Hk; simpl in Hk; assert (k = 0)%nat by lia; subst k;
    unfold pev; rewrite pc_mkp by (simpl; lia); rewrite emb_c by (simpl; lia); symmetry; etransitivity; [exact C0|]; reflexivity|].
  split; [rewrite <- E1; rewrite ft_single; f_equal; apply (pv_ext Cx Czero); intros k Hk; simpl in Hk; assert (k = 0)%nat by lia; subst k;
    unfold pod; rewrite pc_mkp by (simpl; lia); rewrite emb_c by (simpl; lia); symmetry; etransitivity; [exact C1|]; reflexivity|].
  split; [reflexivity|]. split.
  { cbn [sampler_calls centre stddev outcome fst snd]. exists p1. split; [exact Hu|]. exists pos'. split; [exact Hv|reflexivity]. }
  split. { cbn [map rev app twice flat_map stddev fst snd nleaf]. rewrite Ex. reflexivity. }
  assert (Pv := parseval 1 (cpsub p (emb A))).
  assert (Ed : Rsum (2 ^ 1) (fun i => d i * sq (Csub (@ev 1 p i) (@ev 1 (emb A) i))) =
     d 0%nat * Rsum (2 ^ 1) (fun i => sq (@ev 1 (cpsub p (emb A)) i))).
  { rewrite <- Rsum_scal. apply rsum_ext. intros i Hi. rewrite ev_sub. f_equal. simpl in Hi. assert (i = 0 \/ i = 1)%nat as [->| ->] by lia; [reflexivity|exact Es]. }
  rewrite Ed, Pv. assert (P2 : Rsum (2 ^ 1) (fun j => sq (cc (cpsub p (emb A)) j)) = 0 + sq (Csub (cc p 0) (cc (@emb (2 ^ 1) A) 0)) + sq (Csub (cc p 1) (cc (@emb (2 ^ 1) A) 1))).
  { assert (X : forall k, (k < 2 ^ 1)%nat -> cc (cpsub p (emb A)) k = Csub (cc p k) (cc (@emb (2 ^ 1) A) k)) by (intros k Hk; apply pc_sub; exact Hk).
    rewrite (rsum_ext _ _ _ _ _ (fun k => sq (Csub (cc p k) (cc (@emb (2 ^ 1) A) k)))) by (intros k Hk; rewrite X by exact Hk; reflexivity). reflexivity. }
  rewrite P2.
  assert (R0 : snd (cc p 0) = 0) by (apply Hp; simpl; lia). assert (R1 : snd (cc p 1) = 0) by (apply Hp; simpl; lia).
  assert (Q0 : sq (Csub (cc p 0) (cc (@emb (2 ^ 1) A) 0)) = (fst a - IZR u) * (fst a - IZR u)).
  { rewrite C0, Ea. unfold sq, Csub, Cz. revert R0. generalize (cc p 0). intros [r s] R0. cbn in *. rewrite R0. ring. }
  assert (Q1 : sq (Csub (cc p 1) (cc (@emb (2 ^ 1) A) 1)) = (fst b - IZR v) * (fst b - IZR v)).
  { rewrite C1, Eb. unfold sq, Csub, Cz. revert R1. generalize (cc p 1). intros [r s] R1. cbn in *. rewrite R1. ring. }
  rewrite Q0, Q1. change (2 ^ 1)%nat with 2%nat.
  unfold energy. cbn [fold_right centre stddev outcome fst snd]. rewrite Ex.
  assert (S0 := sqrt_lt_R0 _ D0). assert (SS := sqrt_sqrt (d 0%nat) ltac:(lra)).
  replace (sigma / sqrt (d 0%nat) * (sigma / sqrt (d 0%nat))) with (sigma * sigma / d 0%nat); [simpl (INR 2); field; split; lra|].
  rewrite <- SS at 1. field. lra.
Qed.

Lemma sub_l10 h d i : (S (S h) <= 10)%nat -> (forall i, (i < 2 * 2 ^ S h)%nat -> 0 < d i) -> (i < 2 ^ S h)%nat ->
  nth i (vl10 RF (2 ^ S h) (rv (2 ^ S h) (am2 d)) (map (cconj RF) (vspl1 RF exact_table (S h) (rv (2 ^ S (S h)) d)))) Czero =
  Cmul (Cof ((d (2 * i)%nat - d (2 * i + 1)%nat) / (2 * am2 d i))) (pt (S (S h)) (2 * i)).
Proof.
  intros Hh Hd Hi. assert (2 * i + 1 < 2 ^ S (S h))%nat by (change (2 ^ S (S h))%nat with (2 * 2 ^ S h)%nat; lia).
  assert (P := am2_pos _ d (pow2_pos (S h)) Hd i Hi).
  unfold vl10, vop. change Czero with (c0 RF). rewrite (nth_tab (2 ^ S h)) by exact Hi. rewrite rv_nth by exact Hi.
  rewrite (nth_indep _ (c0 RF) (cconj RF (c0 RF))) by (rewrite map_length; unfold vspl1; rewrite tab_length; exact Hi).
  rewrite map_nth. unfold vspl1. rewrite (nth_tab (2 ^ S h)) by exact Hi. rewrite !rv_nth by lia.
  change (nth (2 ^ S h + i) exact_table (c0 RF)) with (nth (2 ^ S h + i) exact_table Czero). rewrite table_pt by assumption.
  generalize (pt (S (S h)) (2 * i)). intros [x y]. revert P. generalize (am2 d i). intros m P. unfold Cmul. ceq; field; lra.
Qed.
Lemma step_identity (d d' m : R) (x0 x1 z : Cx) : 0 < d -> 0 < d' -> m = (d + d') / 2 -> sq z = 1 ->
  m * sq (Cadd x0 (Cmul x1 (Cmul (Cof ((d - d') / (2 * m))) z))) + (d * d' / m) * sq x1 =
  / 2 * (d * sq (Cadd x0 (Cmul z x1)) + d' * sq (Csub x0 (Cmul z x1))).
Proof.
  intros Hd Hd' Em Hz. assert (P : 0 < m) by lra. 
  set (r := (d - d') / (2 * m)). assert (Er : m * r = (d - d') / 2) by (unfold r; field; lra).
  assert (Er2 : m * (r * r) + d * d' / m = m). { unfold r. apply (Rmult_eq_reg_r (4 * m)); [|lra]. field_simplify; [|lra]. rewrite Em. field. }
  destruct x0 as [a b], x1 as [c e], z as [x y]. unfold sq, Cof in *. revert Hz. cx. intros Hz.
  assert (K : m * ((a + (c * (r * x - 0 * y) - e * (r * y + 0 * x))) * (a + (c * (r * x - 0 * y) - e * (r * y + 0 * x))) + (b + (c * (r * y + 0 * x) + e * (r * x - 0 * y))) * (b + (c * (r * y + 0 * x) + e * (r * x - 0 * y)))) + d * d' / m * (c * c + e * e)
    = m * (a * a + b * b) + 2 * (m * r) * (a * (c * x - e * y) + b * (c * y + e * x)) + m * (r * r) * (x * x + y * y) * (c * c + e * e) + d * d' / m * (c * c + e * e)) by (unfold Rdiv; ring).
  rewrite K, Er, Hz. replace (m * (r * r) * 1 * (c * c + e * e)) with ((m - d * d' / m) * (c * c + e * e)) by (rewrite <- Er2 at 1; ring).
  replace ((a + (x * c - y * e)) * (a + (x * c - y * e)) + (b + (x * e + y * c)) * (b + (x * e + y * c))) with
    (a * a + b * b + 2 * (a * (c * x - e * y) + b * (c * y + e * x)) + (x * x + y * y) * (c * c + e * e)) by ring.
  replace ((a - (x * c - y * e)) * (a - (x * c - y * e)) + (b - (x * e + y * c)) * (b - (x * e + y * c))) with
    (a * a + b * b - 2 * (a * (c * x - e * y) + b * (c * y + e * x)) + (x * x + y * y) * (c * c + e * e)) by ring.
  rewrite Hz, Em. field. lra.
Qed.

Lemma sub_run : forall h lvl off d, (S h <= 10)%nat -> (forall i, (i < 2 ^ S h)%nat -> 0 < d i) ->
  (forall i, (i < 2 ^ S h)%nat -> d (2 ^ S h - 1 - i)%nat = d i) ->
  stored RF (2 ^ (lvl + h)) h T off (ntree RF sigma (sub h (rv (2 ^ S h) d))) ->
  sub_claim h lvl off d (leaves (ntree RF sigma (sub h (rv (2 ^ S h) d)))).
Proof.
  induction h as [|h IH]; intros lvl off d Hh Hd Hs St.
  - apply sub_base; [exact Hd| |exact St]. assert (E := Hs 0%nat ltac:(simpl; lia)). exact E.
  - assert (P2 := pow2_pos (S h)).
    assert (E2 : (2 ^ S (S h) = 2 * 2 ^ S h)%nat) by reflexivity.
    assert (Hd' : forall i, (i < 2 * 2 ^ S h)%nat -> 0 < d i) by (intros; apply Hd; lia).
    assert (Es : sub (S h) (rv (2 ^ S (S h)) d) = Node RF (vl10 RF (2 ^ S h) (rv (2 ^ S h) (am2 d)) (map (cconj RF) (vspl1 RF exact_table (S h) (rv (2 ^ S (S h)) d))))
       (sub h (rv (2 ^ S h) (am2 d))) (sub h (rv (2 ^ S h) (hm2 d)))).
    { change (sub (S h) (rv (2 ^ S (S h)) d)) with
        (ltree RF exact_table (S h) (vspl0 RF (S h) (rv (2 ^ S (S h)) d)) (map (cconj RF) (vspl1 RF exact_table (S h) (rv (2 ^ S (S h)) d))) (map (cconj RF) (vspl0 RF (S h) (rv (2 ^ S (S h)) d)))).
      rewrite spl0_rv, rv_conj, ltree_sub. change (fun i => (d (2 * i)%nat + d (2 * i + 1)%nat) / 2) with (am2 d). f_equal. f_equal.
      etransitivity; [apply d11_rv; intros i Hi; apply Rgt_not_eq; apply (am2_pos (2 ^ S h)); assumption|].
      apply tab_ext. intros i Hi. apply (f_equal Cof). unfold hm2. f_equal. f_equal. apply spl1_rv; assumption. }
    rewrite Es in St |- *. cbn [ntree stored] in St. cbn [ntree P_tree.leaves]. destruct St as [Ll [Nl [Sa Sb]]].
    set (l := vl10 _ _ _ _) in *.
    assert (Hs' : forall i, (i < 2 ^ S h)%nat -> d (2 * (2 ^ S h - 1 - i))%nat = d (2 * i + 1)%nat /\ d (2 * (2 ^ S h - 1 - i) + 1)%nat = d (2 * i)%nat).
    { intros i Hi. split; [rewrite <- (Hs (2 * i + 1)%nat) by lia|rewrite <- (Hs (2 * i)%nat) by lia]; f_equal; lia. }
    assert (Sam : forall i, (i < 2 ^ S h)%nat -> am2 d (2 ^ S h - 1 - i) = am2 d i).
    { intros i Hi. unfold am2. destruct (Hs' i Hi) as [-> ->]. lra. }
    destruct (herm_list (S h) l ltac:(lia) Ll) as [pl [El Hpl]].
    { intros i Hi. unfold l. rewrite !sub_l10 by (assumption || lia). rewrite Sam by exact Hi. destruct (Hs' i Hi) as [-> ->].
      replace (2 * (2 ^ S h - 1 - i))%nat with (2 ^ S (S h) - 1 - (2 * i + 1))%nat by lia. rewrite pt_compl by lia. rewrite pt_odd.
      assert (Pm := am2_pos _ d P2 Hd' i Hi). revert Pm.
      generalize (pt (S (S h)) (2 * i)) (am2 d i). intros [x y] m Pm. apply Cx_eq; unfold Cof; cx; field; lra. }
    intros p pos z0 z1 pos' Hp H.
    assert (Ew : (2 ^ (lvl + S h) = 2 ^ (S lvl + h))%nat) by (f_equal; lia).
    assert (H0 : herm (pev Cx Czero p : cpv (2 ^ S h))) by (apply real_herm, real_pev, Hp).
    assert (H1 : herm (pod Cx Czero p : cpv (2 ^ S h))) by (apply real_herm, real_pod, Hp).
    assert (Ca : sub_claim h (S lvl) (off + 2 ^ (lvl + S h)) (am2 d) (leaves (ntree RF sigma (sub h (rv (2 ^ S h) (am2 d)))))).
    { apply IH; [lia|intros i Hi; apply (am2_pos (2 ^ S h)); assumption|exact Sam|]. rewrite Ew in Sa |- *. exact Sa. }
    assert (Cb : sub_claim h (S lvl) (off + 2 ^ (lvl + S h) + 2 ^ h) (hm2 d) (leaves (ntree RF sigma (sub h (rv (2 ^ S h) (hm2 d)))))).
    { apply IH; [lia|intros i Hi; apply (hm2_pos (2 ^ S h)); assumption| |]. 
      - intros i Hi. unfold hm2. rewrite Sam by exact Hi. destruct (Hs' i Hi) as [-> ->]. unfold Rdiv. ring.
      - rewrite Ew in Sb |- *. exact Sb. }
    destruct (ff_node h lvl off l _ _ _ _ _ _ pl pos z0 z1 pos' ltac:(lia) Ll Nl El Ca Cb H0 H1 Hpl H) as [a0 [a1 [cs [-> [-> [Lc [Sc [Dc Ec]]]]]]]].
    destruct (emb_pint (S h) a0 a1) as [a Ea]. exists a, cs.
    assert (Eev : pev Cx Czero (@emb (2 ^ S (S h)) a) = emb a0) by (rewrite Ea; apply pev_pint).
    assert (Eod : pod Cx Czero (@emb (2 ^ S (S h)) a) = emb a1) by (rewrite Ea; apply pod_pint).
    split; [rewrite Eev; reflexivity|]. split; [rewrite Eod; reflexivity|]. split; [rewrite Lc; lia|]. split; [exact Sc|]. split; [exact Dc|].
    rewrite Ec. f_equal.
    assert (PI0 := INR_pow2_pos (S h)).
    match goal with |- ?A / _ = rsum R 0 Rplus _ ?B / _ => assert (K : A = / 2 * Rsum (2 * 2 ^ S h) B) end.
    { rewrite Rsum_pairs. rewrite <- Rsum_scal. apply rsum_ext. intros i Hi. cbv zeta.
      assert (Lpl : ev pl i = Cmul (Cof ((d (2 * i)%nat - d (2 * i + 1)%nat) / (2 * am2 d i))) (pt (S (S h)) (2 * i))).
      { rewrite <- (nth_ft (S h) pl i Hi), <- El. unfold l. apply sub_l10; assumption. }
      rewrite Lpl, (hm2_val (2 ^ S h)) by assumption.
      rewrite (step_identity (d (2 * i)%nat) (d (2 * i + 1)%nat)); [|apply Hd; lia|apply Hd; lia|reflexivity|apply sq_pt].
      rewrite !ev_even, !ev_odd, Eev, Eod.
      generalize (ev (pev Cx Czero p : cpv (2 ^ S h)) i) (ev (pod Cx Czero p : cpv (2 ^ S h)) i) (ev (emb a0) i) (ev (emb a1) i) (pt (S (S h)) (2 * i)).
      intros [? ?] [? ?] [? ?] [? ?] [? ?]. unfold sq. cx. ring. }
    rewrite K. replace (INR (2 ^ S (S h))) with (2 * INR (2 ^ S h)) by (rewrite E2, mult_INR; reflexivity). change (2 ^ S (S h))%nat with (2 * 2 ^ S h)%nat. field. lra.
Qed.
End Samp.

(** ** the root *)
Lemma root_identity (f g F_ G_ x0 x1 : Cx) (d d2 qq : R) : 0 < d -> d = sq f + sq g -> d2 = sq F_ + sq G_ ->
  let w := Cadd (Cmul G_ (Cconj g)) (Cmul F_ (Cconj f)) in sq w = d * d2 - qq ->
  d * sq (Cadd x0 (Cmul x1 (fst w / d, snd w / d))) + qq / d * sq x1 = sq (Cadd (Cmul x0 g) (Cmul x1 G_)) + sq (Cadd (Cmul x0 (Copp f)) (Cmul x1 (Copp F_))).
Proof.
  intros P Ed E2 w Ew. assert (Eq : qq = d * d2 - sq w) by lra.
  assert (K : d * sq (Cadd x0 (Cmul x1 (fst w / d, snd w / d))) + qq / d * sq x1 = d * sq x0 + 2 * (fst (Cmul (Cmul x0 (Cconj x1)) (Cconj w))) + d2 * sq x1).
  { rewrite Eq. generalize w. intros [u v]. destruct x0 as [a b], x1 as [c e]. unfold sq. cx. field. lra. }
  rewrite K, Ed, E2. unfold w. destruct f as [? ?], g as [? ?], F_ as [? ?], G_ as [? ?], x0 as [? ?], x1 as [? ?]. unfold sq. cx. ring.
Qed.

Section Root.
Variable h : nat.
Notation lg := (S h).
Hypothesis Hlg : (lg <= 10)%nat.
Variables f g F_ G_ : list Z.
Notation N := (2 ^ lg)%nat.
Hypotheses (Lf : length f = N) (Lg : length g = N) (LF : length F_ = N) (LG : length G_ = N).
Hypothesis HN : ntru N f g F_ G_.
Notation zl a := (ofl Z 0%Z N a).
Notation pf := (emb (zl f)).
Notation pg := (emb (zl g)).
Notation pF := (emb (zl F_)).
Notation pG := (emb (zl G_)).
Lemma herm_opp (p : cpv N) : herm p -> herm (cpopp p).
Proof. intros H i Hi. rewrite !ev_opp, H, Cconj_opp by exact Hi. reflexivity. Qed.
Lemma herm_kq : herm (kq lg).
Proof. intros i Hi. unfold kq. rewrite !ev_cst. apply Cx_eq; unfold Cof; cx; ring. Qed.
Lemma herm_tp0 c : herm (tp0 lg F_ c).
Proof. apply herm_mul; [apply herm_kq|]. apply herm_mul; [apply herm_emb|]. apply herm_opp, herm_emb. Qed.
Lemma herm_tp1 c : herm (tp1 lg f c).
Proof. apply herm_opp, herm_mul; [apply herm_kq|]. apply herm_mul; [apply herm_emb|]. apply herm_opp, herm_emb. Qed.

Notation w := (vgram RF N (ft pG) (ft (cpopp pF)) (ft pg) (ft (cpopp pf))).
Lemma root_tree_node : root_tree lg f g F_ G_ = Node RF (vl10 RF N (rv N (dd lg f g)) w) (sub h (rv N (dd lg f g))) (sub h (rv N (ddo lg f g))).
Proof.
  unfold root_tree. rewrite <- (root_d11 lg f g F_ G_) by assumption.
  generalize (rv N (dd lg f g)) w (rv N (dd2 lg F_ G_)). intros u v x. apply ltree_sub.
Qed.
Definition wv (i : nat) : Cx := Cadd (Cmul (ev pG i) (Cconj (ev pg i))) (Cmul (ev pF i) (Cconj (ev pf i))).
Lemma wv_ok i : (i < N)%nat -> nth i w Czero = wv i.
Proof. intros Hi. etransitivity; [apply nth_gram; exact Hi|]. rewrite !ev_opp. unfold wv. apply Cx_eq; cx; ring. Qed.
Lemma root_l10 i : (i < N)%nat -> nth i (vl10 RF N (rv N (dd lg f g)) w) Czero = (fst (wv i) / dd lg f g i, snd (wv i) / dd lg f g i).
Proof.
  intros Hi. unfold vl10, vop. change Czero with (c0 RF). rewrite (nth_tab N) by exact Hi. rewrite rv_nth by exact Hi.
  etransitivity; [apply (f_equal (fun x => fcdiv RF x (Cof (dd lg f g i)))); apply wv_ok; exact Hi|].
  assert (P : 0 < dd lg f g i) by (eapply dd_pos; eassumption). revert P. generalize (dd lg f g i) (wv i). intros d [u v] P. ceq; field; lra.
Qed.

(** the quadratic form of the root is the squared norm of the vector *)
Lemma root_quad (pl : cpv N) c a0 a1 : vl10 RF N (rv N (dd lg f g)) w = ft pl ->
  Rsum N (fun i => let x0 := Csub (ev (tp0 lg F_ c) i) (ev (emb a0) i) in let x1 := Csub (ev (tp1 lg f c) i) (ev (emb a1) i) in
      dd lg f g i * sq (Cadd x0 (Cmul x1 (ev pl i))) + ddo lg f g i * sq x1) / INR N =
  IZR (sqnorm (Poly.pl Z N (sv0 lg g G_ c a0 a1)) + sqnorm (Poly.pl Z N (sv1 lg f F_ a0 a1))).
Proof.
  intros El. assert (Dp : forall i, 0 < dd lg f g i) by (intros i; eapply dd_pos; eassumption).
  rewrite plus_IZR, <- !emb_norm.
  assert (PN := INR_pow2_pos lg).
  assert (V := vector_ok lg Hlg f g F_ G_ c a0 a1 HN). rewrite vector_raw in V by exact Hlg. cbv zeta in V.
  assert (V0 := f_equal (fun r => match r with Ok v => fst v | _ => [] end) V). assert (V1 := f_equal (fun r => match r with Ok v => snd v | _ => [] end) V).
  cbn [fst snd] in V0, V1. clear V.
  apply (Rmult_eq_reg_r (INR N)); [|lra].
  replace ((Rsum N (fun j => sq (cc (emb (sv0 lg g G_ c a0 a1)) j)) + Rsum N (fun j => sq (cc (emb (sv1 lg f F_ a0 a1)) j))) * INR N) with
    (INR N * Rsum N (fun j => sq (cc (emb (sv0 lg g G_ c a0 a1)) j)) + INR N * Rsum N (fun j => sq (cc (emb (sv1 lg f F_ a0 a1)) j))) by ring.
  rewrite <- !parseval. rewrite <- (rsum_add _ _ _ _ _ _ _ RTheory).
  match goal with |- ?A / ?b * ?b = ?C => replace (A / b * b) with A by (field; lra) end.
  apply rsum_ext. intros i Hi. cbv zeta.
  apply (f_equal (fun l => nth i l Czero)) in V0, V1. rewrite !nth_ft in V0, V1 by exact Hi. rewrite <- V0, <- V1.
  rewrite !ev_add, !ev_mul, !ev_sub, !ev_opp.
  assert (Epl : ev pl i = (fst (wv i) / dd lg f g i, snd (wv i) / dd lg f g i)).
  { rewrite <- (nth_ft lg pl i Hi). etransitivity; [apply (f_equal (fun l => nth i l Czero)); symmetry; exact El|]. apply root_l10. exact Hi. }
  rewrite Epl. apply (root_identity (ev pf i) (ev pg i) (ev pF i) (ev pG i) _ _ (dd lg f g i) (dd2 lg F_ G_ i) (IZR (q * q))); [apply Dp|reflexivity|reflexivity|].
  rewrite <- (gram10_sq lg f g F_ G_ HN i Hi). f_equal. symmetry. apply (wv_ok i Hi).
Qed.

Lemma root_run fuel smin rng (T : list Cx) (sigma : R) c pos z0 z1 pos' : sigma <> 0 ->
  stored RF N lg T 0 (ntree RF sigma (root_tree lg f g F_ G_)) ->
  ff_sampling RF exact_table fuel lg 0 (ft (tp0 lg F_ c)) (ft (tp1 lg f c)) T 0 smin rng pos = Ok (z0, z1, pos') ->
  exists (a0 a1 : zpv N) cs, z0 = ft (emb a0) /\ z1 = ft (emb a1) /\ length cs = (2 * N)%nat /\ sampler_calls fuel smin rng cs pos pos' /\
    map stddev cs = twice (rev (map (fun x : Cx => fst x) (leaves (ntree RF sigma (root_tree lg f g F_ G_))))) /\
    energy cs = / (2 * (sigma * sigma)) * IZR (sqnorm (pl Z N (sv0 lg g G_ c a0 a1)) + sqnorm (pl Z N (sv1 lg f F_ a0 a1))).
Proof.
  intros Hs St H. rewrite root_tree_node in St |- *. cbn [ntree stored] in St. cbn [ntree P_tree.leaves]. destruct St as [Ll [Nl [Sa Sb]]].
  assert (Dp : forall i, 0 < dd lg f g i) by (intros i; eapply dd_pos; eassumption). assert (Q := qq_pos).
  assert (Hsym : forall i, (i < N)%nat -> wv (N - 1 - i) = Cconj (wv i)).
  { intros i Hi. unfold wv. rewrite !ev_compl by exact Hi. rewrite Cconj_add, !Cconj_mul. reflexivity. }
  destruct (herm_list lg _ Hlg Ll) as [pl [El Hpl]].
  { intros i Hi. assert (PN := pow2_pos lg). etransitivity; [apply root_l10; lia|]. etransitivity; [|symmetry; apply f_equal; apply root_l10; exact Hi]. rewrite Hsym by exact Hi. rewrite dd_sym by exact Hi.
    generalize (Dp i). generalize (dd lg f g i) (wv i). intros d [u v] P. apply Cx_eq; cx; field; lra. }
  assert (Ca : sub_claim fuel smin rng T sigma h 1 (0 + N) (dd lg f g) (leaves (ntree RF sigma (sub h (rv N (dd lg f g)))))).
  { apply sub_run; [exact Hs|exact Hlg|intros; apply Dp|apply dd_sym|exact Sa]. }
  assert (Cb : sub_claim fuel smin rng T sigma h 1 (0 + N + 2 ^ h) (ddo lg f g) (leaves (ntree RF sigma (sub h (rv N (ddo lg f g)))))).
  { apply sub_run; [exact Hs|exact Hlg| | |exact Sb].
    - intros i Hi. unfold ddo. apply Rdiv_lt_0_compat; [exact Q|apply Dp].
    - intros i Hi. unfold ddo. rewrite dd_sym by exact Hi. reflexivity. }
  destruct (ff_node fuel smin rng T sigma h 0 0 _ _ _ _ _ _ _ pl pos z0 z1 pos' Hlg Ll Nl El Ca Cb (herm_tp0 c) (herm_tp1 c) Hpl H) as [a0 [a1 [cs [-> [-> [Lc [Sc [Dc Ec]]]]]]]].
  exists a0, a1, cs. split; [reflexivity|]. split; [reflexivity|]. split; [exact Lc|]. split; [exact Sc|]. split; [exact Dc|].
  rewrite Ec. f_equal. apply root_quad. exact El.
Qed.
End Root.
