(** P_signx.v -- exact arithmetic: keys invertible modulo q have no zero among the FFT points, recompute_G
    returns G, and signatures produced by sign satisfy the verification equation. *)
From Verif Require Import Base Ring Poly Spec SpecR M_ff M_xform P_xform M_codec P_codec P_keys M_sig P_comp P_sigx M_verify M_float M_exact P_exact M_samp M_fft M_ntru P_ntru M_tree P_tree P_brv P_cplx P_fft P_treex P_gs P_sign P_signb.
From Coq Require Import Ring_theory Ring Lra.
Open Scope R_scope.

Section Alg.
Variable R : Type.
Variables (rO rI : R) (radd rmul rsub : R -> R -> R) (ropp : R -> R).
Hypothesis Rth : ring_theory rO rI radd rmul rsub ropp eq.
Add Ring AlgR : Rth.
Local Infix "+!" := radd (at level 50, left associativity).
Local Infix "-!" := rsub (at level 50, left associativity).
Local Infix "*!" := rmul (at level 40, left associativity).
Lemma alg_eo x a b c d : (a +! x *! b) *! (c +! x *! d) = (a *! c +! x *! x *! (b *! d)) +! x *! (a *! d +! b *! c).
Proof. ring. Qed.
Lemma alg_eo' x a b c d : (a -! x *! b) *! (c -! x *! d) = (a *! c +! x *! x *! (b *! d)) -! x *! (a *! d +! b *! c).
Proof. ring. Qed.
Lemma alg_one p f m r p' f' r' : p *! f = rI +! m *! r -> p' *! f' = rI +! m *! r' ->
  (p *! p') *! (f *! f') = rI +! m *! (r +! r' +! m *! (r *! r')).
Proof. intros H1 H2. transitivity ((p *! f) *! (p' *! f')); [ring|]. rewrite H1, H2. ring. Qed.
Lemma alg_even e x o : (e +! x *! o) +! (e -! x *! o) = e +! e.
Proof. ring. Qed.
End Alg.

Notation zring n := (pring Z 0%Z 1%Z Z.add Z.mul Z.sub Z.opp Zth' n).
Notation zlift := (plift Z 0%Z).
Notation zconj := (pconj Z 0%Z Z.opp).
Notation zx := (px Z 0%Z 1%Z Z.opp).
Notation zone := (p1 Z 0%Z 1%Z).
Notation zev := (pev Z 0%Z).
Notation zod := (pod Z 0%Z).

Lemma zconj_eo n (a b : zpv n) : zconj (zadd (zlift a) (zmul zx (zlift b))) = zsub (zlift a) (zmul zx (zlift b)).
Proof.
  apply pv_ext with (rO := 0%Z). intros k Hk. unfold pconj. rewrite pc_mkp by exact Hk. rewrite pc_sub by exact Hk. rewrite pc_add by exact Hk.
  destruct (parity_case k) as [i [->| ->]].
  - rewrite evenb2. rewrite (px_lift_even _ _ _ _ _ _ _ Zth') by lia. ring.
  - rewrite evenb21. rewrite pc_lift_odd by lia. ring.
Qed.
Lemma zconj_mul n (a b : zpv (2 * n)) : (1 <= n)%nat -> zconj (zmul a b) = zmul (zconj a) (zconj b).
Proof.
  intros Hn. rewrite (peo_split Z 0%Z 1%Z Z.add Z.mul Z.sub Z.opp Zth' n a) at 1. rewrite (peo_split Z 0%Z 1%Z Z.add Z.mul Z.sub Z.opp Zth' n b) at 1.
  rewrite (pconj_split Z 0%Z 1%Z Z.add Z.mul Z.sub Z.opp Zth' n a), (pconj_split Z 0%Z 1%Z Z.add Z.mul Z.sub Z.opp Zth' n b).
  rewrite (alg_eo' _ _ _ _ _ _ _ (zring (2 * n))), (alg_eo _ _ _ _ _ _ _ (zring (2 * n))).
  rewrite (px_sq Z 0%Z 1%Z Z.add Z.mul Z.sub Z.opp Zth' n Hn).
  rewrite <- !(plift_mul Z 0%Z 1%Z Z.add Z.mul Z.sub Z.opp Zth'), <- !(plift_add Z 0%Z 1%Z Z.add Z.mul Z.sub Z.opp Zth'). apply zconj_eo.
Qed.
Lemma zlift_inj n (a b : zpv n) : zlift a = zlift b -> a = b.
Proof.
  intros H. apply pv_ext with (rO := 0%Z). intros k Hk. apply (f_equal (fun p => zc p (2 * k)%nat)) in H.
  rewrite !pc_lift_even in H by exact Hk. exact H.
Qed.
Lemma zconj_one n (m : Z) (r : zpv n) : zconj (zadd zone (zmul (zcst m) r)) = zadd zone (zmul (zcst m) (zconj r)).
Proof.
  apply pv_ext with (rO := 0%Z). intros k Hk. rewrite pc_add by exact Hk. rewrite pc_cst_mul by exact Hk. unfold pconj. rewrite !pc_mkp by exact Hk.
  rewrite pc_add by exact Hk. rewrite pc_cst_mul by exact Hk. unfold p1. rewrite !pc_mkp by exact Hk. unfold one_p.
  destruct (Nat.even k) eqn:E; [reflexivity|]. destruct k; [discriminate|]. cbn [Nat.eqb]. ring.
Qed.
Lemma zconj_sum n (r : zpv (2 * n)) : zadd r (zconj r) = zlift (zadd (zev r) (zev r)).
Proof.
  rewrite (peo_split Z 0%Z 1%Z Z.add Z.mul Z.sub Z.opp Zth' n r) at 1. rewrite (pconj_split Z 0%Z 1%Z Z.add Z.mul Z.sub Z.opp Zth' n r).
  rewrite (alg_even _ _ _ _ _ _ _ (zring (2 * n))). symmetry. apply (plift_add Z 0%Z 1%Z Z.add Z.mul Z.sub Z.opp Zth').
Qed.
Lemma zlift_one n : zlift (zone : zpv n) = zone.
Proof. exact (plift_cst Z 0%Z n 1%Z). Qed.

(** the norm of a unit modulo m is a unit modulo m *)
Lemma norm_unit n (m : Z) (p f r : zpv (2 * n)) : (1 <= n)%nat -> zmul p f = zadd zone (zmul (zcst m) r) ->
  exists r', zmul (znorm p) (znorm f) = zadd zone (zmul (zcst m) r').
Proof.
  intros Hn H. exists (zadd (zadd (zev r) (zev r)) (zmul (zcst m) (znorm r))). apply zlift_inj.
  rewrite (plift_mul Z 0%Z 1%Z Z.add Z.mul Z.sub Z.opp Zth'). rewrite !(pnorm_lift Z 0%Z 1%Z Z.add Z.mul Z.sub Z.opp Zth') by exact Hn.
  assert (H' : zmul (zconj p) (zconj f) = zadd zone (zmul (zcst m) (zconj r))) by (rewrite <- zconj_mul by exact Hn; rewrite H; apply zconj_one).
  rewrite (alg_one _ _ _ _ _ _ _ (zring (2 * n)) _ _ _ _ _ _ _ H H').
  rewrite !(plift_add Z 0%Z 1%Z Z.add Z.mul Z.sub Z.opp Zth'), !(plift_mul Z 0%Z 1%Z Z.add Z.mul Z.sub Z.opp Zth'), !(plift_add Z 0%Z 1%Z Z.add Z.mul Z.sub Z.opp Zth').
  rewrite !(plift_mul Z 0%Z 1%Z Z.add Z.mul Z.sub Z.opp Zth'), !(plift_cst Z 0%Z), zlift_one.
  rewrite (pnorm_lift Z 0%Z 1%Z Z.add Z.mul Z.sub Z.opp Zth') by exact Hn. rewrite zconj_sum.
  rewrite (plift_add Z 0%Z 1%Z Z.add Z.mul Z.sub Z.opp Zth'). reflexivity.
Qed.
Lemma ev_lift lg (a : zpv (2 ^ lg)) j : (j < 2 ^ lg)%nat ->
  @ev (S lg) (@emb (2 ^ S lg) (zlift a)) (2 * j) = ev (emb a) j /\ @ev (S lg) (@emb (2 ^ S lg) (zlift a)) (2 * j + 1) = ev (emb a) j.
Proof.
  intros Hj. assert (Ee : @pev Cx Czero (2 ^ lg) (@emb (2 ^ S lg) (zlift a)) = emb a).
  { change (2 ^ S lg)%nat with (2 * 2 ^ lg)%nat. apply pv_ext with (rO := Czero). intros k Hk. unfold pev. rewrite pc_mkp by exact Hk. rewrite !emb_c by lia. rewrite pc_lift_even by exact Hk. reflexivity. }
  assert (Eo : ev (@pod Cx Czero (2 ^ lg) (@emb (2 ^ S lg) (zlift a))) j = Czero).
  { change (2 ^ S lg)%nat with (2 * 2 ^ lg)%nat. replace (pod Cx Czero (emb (zlift a))) with (pcst Cx Czero Czero : cpv (2 ^ lg)); [apply ev_cst|].
    apply pv_ext with (rO := Czero). intros k Hk. unfold pod, pcst. rewrite !pc_mkp by exact Hk. rewrite emb_c by lia. rewrite pc_lift_odd by exact Hk. destruct (k =? 0)%nat; reflexivity. }
  revert Ee Eo. generalize (@emb (2 ^ S lg) (zlift a)). intros x Ee Eo.
  assert (E1 : ev x (2 * j) = Cadd (@ev lg (@pev Cx Czero (2 ^ lg) x) j) (Cmul (pt (S lg) (2 * j)) (@ev lg (@pod Cx Czero (2 ^ lg) x) j))) by exact (ev_even lg x j).
  assert (E2 : ev x (2 * j + 1) = Csub (@ev lg (@pev Cx Czero (2 ^ lg) x) j) (Cmul (pt (S lg) (2 * j)) (@ev lg (@pod Cx Czero (2 ^ lg) x) j))) by exact (ev_odd lg x j).
  rewrite E1, E2. split; rewrite Ee, Eo; generalize (ev (emb a) j) (pt (S lg) (2 * j)); intros [u v] [w z]; apply Cx_eq; cx; ring.
Qed.
Lemma unit_nonzero m : (2 <= m)%Z -> forall lg (p f r : zpv (2 ^ lg)), zmul p f = zadd zone (zmul (zcst m) r) ->
  forall i, (i < 2 ^ lg)%nat -> ev (emb p) i <> Czero.
Proof.
  intros Hm. induction lg as [|lg IH]; intros p f r H i Hi E.
  - simpl in Hi. assert (i = 0)%nat by lia. subst i. unfold ev, reval in E. cbn [rsum Nat.pow] in E. rewrite emb_c in E by (simpl; lia).
    assert (P0 : zc p 0 = 0%Z). { apply (f_equal fst) in E. change (0 + (IZR (zc p 0) * 1 - 0 * 0) = 0) in E. apply eq_IZR. lra. }
    apply (f_equal (fun v => zc v 0%nat)) in H. rewrite pc_mul, pc_add, pc_cst_mul in H by (simpl; lia). unfold p1 in H. rewrite pc_mkp in H by (simpl; lia).
    unfold nconv, one_p in H. cbn [Nat.pow rsum Nat.leb Nat.eqb Nat.sub] in H.
    assert (H2 : (0 + zc p 0 * zc f 0 = 1 + m * zc r 0)%Z) by exact H. rewrite P0 in H2.
    assert (D : (m * (- zc r 0))%Z = 1%Z) by lia. apply Z.eq_mul_1 in D. lia.
  - destruct (norm_unit (2 ^ lg) m p f r) as [r' H']; [apply Nat.neq_0_lt_0, Nat.pow_nonzero; lia|exact H|].
    assert (Hj : (i / 2 < 2 ^ lg)%nat) by (apply Nat.div_lt_upper_bound; [lia|]; simpl in Hi; lia).
    apply (IH _ _ _ H' (i / 2)%nat Hj). 
    assert (L : @ev (S lg) (emb (zlift (znorm p))) i = Czero).
    { rewrite (pnorm_lift Z 0%Z 1%Z Z.add Z.mul Z.sub Z.opp Zth') by (apply Nat.neq_0_lt_0, Nat.pow_nonzero; lia). rewrite emb_mul.
      etransitivity; [apply (@ev_mul (S lg))|]. change (Cmul (@ev (S lg) (@emb (2 ^ S lg) p) i) (@ev (S lg) (@emb (2 ^ S lg) (zconj p)) i) = Czero). rewrite E.
      generalize (@ev (S lg) (@emb (2 ^ S lg) (zconj p)) i). intros [u v]. apply Cx_eq; cx; ring. }
    destruct (ev_lift lg (znorm p) (i / 2) Hj) as [L1 L2].
    destruct (parity_case i) as [k [->| ->]]; rewrite ?half2, ?half21 in *; [exact (eq_trans (eq_sym L1) L)|exact (eq_trans (eq_sym L2) L)].
Qed.
Lemma invertible_nonzero lg (f : list Z) : (exists fi, length fi = (2 ^ lg)%nat /\ modq (negacyclic (2 ^ lg) f fi) = onep (2 ^ lg)) ->
  forall i, (i < 2 ^ lg)%nat -> ev (emb (zof (2 ^ lg) f)) i <> Czero.
Proof.
  intros [fi [_ H]] i Hi. rewrite negacyclic_zmul in H. set (w := zmul (zof (2 ^ lg) f) (zof (2 ^ lg) fi)) in *.
  apply (unit_nonzero q ltac:(unfold q; lia) lg _ (zof (2 ^ lg) fi) (zmk (2 ^ lg) (fun k => (zc w k / q)%Z))); [|exact Hi].
  fold w. apply pv_ext with (rO := 0%Z). intros k Hk. rewrite pc_add by exact Hk. rewrite pc_cst_mul by exact Hk. unfold p1. rewrite !pc_mkp by exact Hk.
  apply (f_equal (fun l => nth k l 0%Z)) in H. unfold onep in H. rewrite nth_tab in H by exact Hk. unfold modq in H.
  rewrite (nth_indep _ 0%Z (0 mod q)%Z) in H by (rewrite map_length, pl_length; exact Hk). rewrite (map_nth (fun x => (x mod q)%Z)) in H.
  unfold one_p. change (nth k (zpl w) 0%Z) with (zc w k) in H. rewrite <- H. rewrite (Z.div_mod (zc w k) q) at 1 by (unfold q; lia). ring.
Qed.

(** ** recompute_G *)
Lemma q_vec lg : repeat (cof RF (fofz RF M_ff.Q)) (2 ^ lg) = ft (pcst Cx Czero (Cz q) : cpv (2 ^ lg)).
Proof.
  apply (@list_ext Cx Czero); [rewrite ft_length; apply repeat_length|]. intros i Hi.
  assert (Hi' : (i < 2 ^ lg)%nat) by (revert Hi; change (D RF * D RF)%type with Cx; rewrite (@repeat_length Cx); auto).
  rewrite nth_ft by exact Hi'. rewrite ev_cst. etransitivity; [apply nth_repeat0; exact Hi'|reflexivity].
Qed.
Lemma recompute_G_ok lg (f g F_ G_ out : list Z) : (lg <= 10)%nat -> length f = (2 ^ lg)%nat -> length g = (2 ^ lg)%nat -> length F_ = (2 ^ lg)%nat -> length G_ = (2 ^ lg)%nat ->
  length out = (2 ^ lg)%nat -> ntru (2 ^ lg) f g F_ G_ -> Forall (fun x => -2147483648 <= x <= 2147483647)%Z G_ ->
  (forall i, (i < 2 ^ lg)%nat -> ev (emb (zof (2 ^ lg) f)) i <> Czero) ->
  recompute_G RF exact_table lg f g F_ out = Ok G_.
Proof.
  intros Hlg Lf Lg LF LG Lo HN HG NZ. unfold recompute_G.
  rewrite (of_ints_ok lg f Lf), (of_ints_ok lg g Lg), (of_ints_ok lg F_ LF). cbn [bind]. rewrite !fft_cpl by exact Hlg. cbn [bind].
  assert (LFr : @length Cx (fresh RF (2 ^ lg)) = (2 ^ lg)%nat) by apply repeat_length.
  rewrite cpoly_mul_ok by exact LFr. cbn [bind]. rewrite q_vec, cpoly_add_to_ok. cbn [bind].
  assert (ED : cpoly_div RF lg (ft (cpadd (cpmul (emb (zof (2 ^ lg) g)) (emb (zof (2 ^ lg) F_))) (pcst Cx Czero (Cz q)))) (ft (emb (zof (2 ^ lg) f))) (fresh RF (2 ^ lg)) = Ok (ft (emb (zof (2 ^ lg) G_)))).
  { unfold cpoly_div. change (D RF * D RF)%type with Cx.
    rewrite (zipw_ok (fun x y => Ok (fcdiv RF x y)) (fcdiv RF) (2 ^ lg) _ _ (fresh RF (2 ^ lg)) Czero Czero);
      [|rewrite ft_length; reflexivity|rewrite ft_length; reflexivity|symmetry; exact LFr|reflexivity].
    apply (f_equal Ok). unfold ft at 3. apply tab_ext. intros i Hi. rewrite !nth_ft by exact Hi. rewrite ev_add, ev_mul, ev_cst.
    assert (E := ntru_ev lg f g F_ G_ HN i). assert (Nz := NZ i Hi). revert E Nz.
    generalize (ev (emb (zof (2 ^ lg) f)) i) (ev (emb (zof (2 ^ lg) g)) i) (ev (emb (zof (2 ^ lg) F_)) i) (ev (emb (zof (2 ^ lg) G_)) i) (Cz q).
    intros x [g1 g2] [F1 F2] [G1 G2] [q1 q2] E Nz. assert (S0 : sq x <> 0) by (intros Z0; apply Nz, sq_0; exact Z0). destruct x as [f1 f2]. unfold sq in S0. cbn [fst snd] in S0.
    assert (Er := f_equal fst E). assert (Ei := f_equal snd E). clear E. unfold Csub, Cmul in Er, Ei. cbn [fst snd] in Er, Ei. subst q1 q2.
    apply Cx_eq; cbn; unfold Cadd, Cmul; cbn [fst snd]; field; exact S0. }
  rewrite ED. cbn [bind]. rewrite ifft_ok by exact Hlg. cbn [bind].
  rewrite round_ok; [rewrite pl_ofl by exact LG; reflexivity|exact Lo|rewrite pl_ofl by exact LG; exact HG].
Qed.

(** ** the vector behind a signature *)
Lemma sqnorm_coeff (a : list Z) x : In x a -> (x * x <= sqnorm a)%Z.
Proof.
  induction a as [|y a IH]; [intros []|]. change (sqnorm (y :: a)) with (y * y + sqnorm a)%Z.
  assert (P : (0 <= sqnorm a)%Z) by (clear; induction a as [|z a IH]; [unfold sqnorm; simpl; lia|change (sqnorm (z :: a)) with (z * z + sqnorm a)%Z; nia]).
  intros [->|H]; [nia|]. specialize (IH H). nia.
Qed.
Lemma sqnorm_pos (a : list Z) : (0 <= sqnorm a)%Z.
Proof. induction a as [|z a IH]; [unfold sqnorm; simpl; lia|change (sqnorm (z :: a)) with (z * z + sqnorm a)%Z; nia]. Qed.
Lemma pl_padd n (a b : zpv n) : pl Z n (Poly.padd Z 0%Z Z.add a b) = Spec.padd n (pl Z n a) (pl Z n b).
Proof. reflexivity. Qed.
Lemma pl_psub n (a b : zpv n) : pl Z n (Poly.psub Z 0%Z Z.sub a b) = Spec.psub n (pl Z n a) (pl Z n b).
Proof. reflexivity. Qed.
Section Run.
Variable lg : nat.
Hypothesis Hlg : (lg <= 10)%nat.
Variables f g F_ G_ : list Z.
Notation N := (2 ^ lg)%nat.
Hypothesis Lf : length f = N.
Hypothesis Lg : length g = N.
Hypothesis LF : length F_ = N.
Hypothesis LG : length G_ = N.
Hypothesis HN : ntru N f g F_ G_.
Lemma accepted_exact sfuel T c smin b rng pos' s2 t0 t1 : length c = N -> (b <= 1000000000)%Z ->
  sign_target RF exact_table lg (Bex lg f g F_ G_) c = Ok (t0, t1) ->
  accepted RF exact_table sfuel lg (Bex lg f g F_ G_) T t0 t1 smin b rng pos' s2 ->
  exists z0 z1, length z0 = N /\ length z1 = N /\
   s2 = Spec.padd N (negacyclic N z0 f) (negacyclic N z1 F_) /\
   (sqnorm (Spec.psub N (Spec.psub N c (negacyclic N z0 g)) (negacyclic N z1 G_)) + sqnorm s2 <= b)%Z.
Proof.
  intros Lc Hb Ht (p & z0 & z1 & s0 & s1 & n0 & n1 & s1' & E1 & E2 & E3 & E4 & E5 & E6 & E7).
  rewrite target_ok in Ht by assumption.
  assert (T0 := f_equal (fun r => match r with Ok v => fst v | _ => [] end) Ht). assert (T1 := f_equal (fun r => match r with Ok v => snd v | _ => [] end) Ht).
  cbn [fst snd] in T0, T1. subst t0 t1. clear Ht.
  destruct (ffsamp_int _ _ _ _ _ _ _ _ _ _ _ _ _ Hlg (ft_length _ _) (ft_length _ _) E1) as [a0 [a1 [-> ->]]].
  rewrite vector_ok in E2 by assumption.
  assert (S0 := f_equal (fun r => match r with Ok v => fst v | _ => [] end) E2). assert (S1 := f_equal (fun r => match r with Ok v => snd v | _ => [] end) E2).
  cbn [fst snd] in S0, S1. subst s0 s1. clear E2.
  set (w0 := sv0 lg g G_ c a0 a1) in *. set (w1 := sv1 lg f F_ a0 a1) in *.
  rewrite sqnorm_emb in E3, E4. apply (f_equal (fun r => match r with Ok v => v | _ => 0 end)) in E3. apply (f_equal (fun r => match r with Ok v => v | _ => 0 end)) in E4. cbv beta iota in E3, E4. subst n0 n1.
  assert (E5' : (sqnorm (pl Z _ w0) + sqnorm (pl Z _ w1) <= b)%Z).
  { cbn in E5. revert E5. destruct (Rle_dec _ _) as [H|]; [|discriminate]. intros _. rewrite <- plus_IZR in H. apply le_IZR in H. exact H. }
  rewrite ifft_ok in E6 by exact Hlg. apply (f_equal (fun r => match r with Ok v => v | _ => [] end)) in E6. cbv beta iota in E6. subst s1'.
  rewrite round_ok in E7.
  - apply (f_equal (fun r => match r with Ok v => v | _ => [] end)) in E7. cbv beta iota in E7. subst s2.
    exists (pl Z _ a0), (pl Z _ a1). split; [apply pl_length|]. split; [apply pl_length|].
    assert (Ew1 : pl Z N w1 = Spec.padd N (negacyclic N (pl Z N a0) f) (negacyclic N (pl Z N a1) F_)).
    { unfold w1, sv1. rewrite pl_padd, !negacyclic_zmul, !ofl_pl. reflexivity. }
    assert (Ew0 : pl Z N w0 = Spec.psub N (Spec.psub N c (negacyclic N (pl Z N a0) g)) (negacyclic N (pl Z N a1) G_)).
    { unfold w0, sv0. rewrite !pl_psub, !negacyclic_zmul, !ofl_pl, pl_ofl by exact Lc. reflexivity. }
    split; [exact Ew1|]. rewrite <- Ew0. exact E5'.
  - apply repeat_length.
  - rewrite Forall_forall. intros x Hx. assert (X := sqnorm_coeff _ _ Hx). assert (Y := sqnorm_pos (pl Z N w0)). nia.
Qed.
End Run.

(** statements on coefficient lists for T_sign *)
Lemma ft_emb_values lg (a : zpv (2 ^ lg)) : ft (emb a) = values lg (map Cz (pl Z _ a)).
Proof.
  rewrite ft_values. f_equal. apply (@list_ext Cx Czero); [rewrite pl_length, map_length, pl_length; reflexivity|]. rewrite pl_length. intros i Hi.
  change (nth i (cpl (emb a)) Czero) with (cc (emb a) i). rewrite emb_c by exact Hi.
  rewrite (nth_indep _ Czero (Cz 0)) by (rewrite map_length, pl_length; exact Hi). rewrite map_nth. reflexivity.
Qed.
Lemma ffsamp_values lg fuel smin g (T t0 t1 : list Cx) off lvl pos z0 z1 pos' : (lg <= 10)%nat -> length t0 = (2 ^ lg)%nat -> length t1 = (2 ^ lg)%nat ->
  ff_sampling RF exact_table fuel lg lvl t0 t1 T off smin g pos = Ok (z0, z1, pos') ->
  exists a0 a1 : list Z, length a0 = (2 ^ lg)%nat /\ length a1 = (2 ^ lg)%nat /\ z0 = values lg (map Cz a0) /\ z1 = values lg (map Cz a1).
Proof.
  intros Hl L0 L1 H. destruct (ffsamp_int fuel smin g T lg lvl t0 t1 off pos z0 z1 pos' Hl L0 L1 H) as (a0 & a1 & -> & ->).
  exists (pl Z _ a0), (pl Z _ a1). rewrite !pl_length, !ft_emb_values. auto.
Qed.
Lemma recompute_G_roots lg (f g F_ G_ out : list Z) : (lg <= 10)%nat -> length f = (2 ^ lg)%nat -> length g = (2 ^ lg)%nat -> length F_ = (2 ^ lg)%nat -> length G_ = (2 ^ lg)%nat ->
  length out = (2 ^ lg)%nat -> ntru (2 ^ lg) f g F_ G_ -> Forall (fun x => -2147483648 <= x <= 2147483647)%Z G_ ->
  (forall i, (i < 2 ^ lg)%nat -> poly_at lg f i <> Czero) -> recompute_G RF exact_table lg f g F_ out = Ok G_.
Proof.
  intros Hl Lf Lg LF LG Lo HN HG NZ. apply recompute_G_ok; try assumption. intros i Hi. rewrite <- poly_at_ev by exact Lf. apply NZ. exact Hi.
Qed.
Lemma recompute_G_unit lg (f g F_ G_ out : list Z) : (lg <= 10)%nat -> length f = (2 ^ lg)%nat -> length g = (2 ^ lg)%nat -> length F_ = (2 ^ lg)%nat -> length G_ = (2 ^ lg)%nat ->
  length out = (2 ^ lg)%nat -> ntru (2 ^ lg) f g F_ G_ -> Forall (fun x => -2147483648 <= x <= 2147483647)%Z G_ ->
  (exists fi, length fi = (2 ^ lg)%nat /\ modq (negacyclic (2 ^ lg) f fi) = onep (2 ^ lg)) -> recompute_G RF exact_table lg f g F_ out = Ok G_.
Proof. intros Hl Lf Lg LF LG Lo HN HG U. apply recompute_G_ok; try assumption. apply invertible_nonzero. exact U. Qed.
