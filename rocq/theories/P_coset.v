(** P_coset.v -- the vectors signing can draw are those of the coset { (s1, s2) : s1 + s2 h = c mod q }, each from one pair (z0, z1). *)
From Verif Require Import Base Ring Poly Zq Spec M_ff P_ff P_ntt P_ntru P_verifyx.
From Coq Require Import Ring_theory Ring Lia.
Local Open Scope Z_scope.

Section Alg.
Variable R : Type.
Variables (rO rI : R) (radd rmul rsub : R -> R -> R) (ropp : R -> R).
Hypothesis Rth : ring_theory rO rI radd rmul rsub ropp eq.
Add Ring AlgC : Rth.
Local Infix "+!" := radd (at level 50, left associativity).
Local Infix "-!" := rsub (at level 50, left associativity).
Local Infix "*!" := rmul (at level 40, left associativity).
Lemma alg_solve f g F G k s u z0 z1 : f *! G -! g *! F = k -> G *! s -! F *! u = k *! z0 -> f *! u -! g *! s = k *! z1 ->
  k *! (z0 *! f +! z1 *! F) = k *! s /\ k *! (z0 *! g +! z1 *! G) = k *! u.
Proof.
  intros E E0 E1. split.
  - transitivity ((k *! z0) *! f +! (k *! z1) *! F); [ring|]. rewrite <- E0, <- E1, <- E. ring.
  - transitivity ((k *! z0) *! g +! (k *! z1) *! G); [ring|]. rewrite <- E0, <- E1, <- E. ring.
Qed.
Lemma alg_unique f g F G k s u z0 z1 : f *! G -! g *! F = k -> z0 *! f +! z1 *! F = s -> z0 *! g +! z1 *! G = u ->
  k *! z0 = G *! s -! F *! u /\ k *! z1 = f *! u -! g *! s.
Proof. intros <- <- <-. split; ring. Qed.
Lemma alg_mid c u x y : u = x +! y -> c -! u = c -! x -! y.
Proof. intros ->. ring. Qed.
Lemma alg_mid' c x y x' y' : c -! x -! y = c -! x' -! y' -> x +! y = x' +! y'.
Proof. intros H. transitivity (c -! (c -! x -! y)); [ring|]. rewrite H. ring. Qed.
Lemma alg_shift f g F G : f *! (G +! g) -! g *! (F +! f) = f *! G -! g *! F.
Proof. ring. Qed.
End Alg.

Section N.
Variable N : nat.
Notation R := (zpv N).
Notation zr := (pring Z 0 1 Z.add Z.mul Z.sub Z.opp Zth' N).
Lemma cst_cancel (a b : R) k : k <> 0 -> zmul (zcst k) a = zmul (zcst k) b -> a = b.
Proof.
  intros Hk H. apply (pv_ext Z 0). intros i Hi. assert (E := f_equal (fun p => zc p i) H). cbv beta in E. rewrite !pc_cst_mul in E by exact Hi. nia.
Qed.
Lemma cst_div (y : R) k : k <> 0 -> (forall i, (i < N)%nat -> zc y i mod k = 0) -> exists z : R, y = zmul (zcst k) z.
Proof.
  intros Hk H. exists (zmk N (fun i => zc y i / k)). apply (pv_ext Z 0). intros i Hi. rewrite pc_cst_mul, pc_mkp by exact Hi. specialize (H i Hi). assert (D := Z.div_mod (zc y i) k Hk). lia.
Qed.
Lemma pl_padd' (a b : R) : zpl (zadd a b) = Spec.padd N (zpl a) (zpl b).
Proof. apply (list_ext 0); [rewrite pl_length; unfold Spec.padd; rewrite tab_length; reflexivity|]. rewrite pl_length. intros i Hi. unfold Spec.padd. rewrite nth_tab by exact Hi. apply (pc_add Z 0 Z.add N a b i Hi). Qed.
Lemma pl_psub' (a b : R) : zpl (zsub a b) = Spec.psub N (zpl a) (zpl b).
Proof. apply (list_ext 0); [rewrite pl_length; unfold Spec.psub; rewrite tab_length; reflexivity|]. rewrite pl_length. intros i Hi. unfold Spec.psub. rewrite nth_tab by exact Hi. apply (pc_sub Z 0 Z.sub N a b i Hi). Qed.
End N.

Section Coset.
Variable lg : nat.
Hypothesis Hlg : falcon_lg lg.
Notation N := (2 ^ lg)%nat.
Notation zr := (pring Z 0 1 Z.add Z.mul Z.sub Z.opp Zth' N).
Variables f g F_ G_ h : list Z.
Hypotheses (Lf : length f = N) (Lg : length g = N) (LF : length F_ = N) (LG : length G_ = N) (Lh : length h = N).
Hypothesis HN : ntru N f g F_ G_.
Hypothesis HI : exists fi, length fi = N /\ modq (negacyclic N f fi) = onep N.
Hypothesis HP : modq (negacyclic N h f) = modq g.
Notation v1 c z0 z1 := (Spec.psub N (Spec.psub N c (negacyclic N z0 g)) (negacyclic N z1 G_)).
Notation v2 z0 z1 := (Spec.padd N (negacyclic N z0 f) (negacyclic N z1 F_)).

Lemma pl_of l : length l = N -> zpl (zof N l) = l.
Proof. intros L. apply (pl_ofl Z 0 N l L). Qed.
Lemma v1_pl c z0 z1 : length c = N -> v1 c z0 z1 = zpl (zsub (zsub (zof N c) (zmul (zof N z0) (zof N g))) (zmul (zof N z1) (zof N G_))).
Proof. intros L. rewrite !pl_psub', !negacyclic_zmul, pl_of by exact L. reflexivity. Qed.
Lemma v2_pl z0 z1 : v2 z0 z1 = zpl (zadd (zmul (zof N z0) (zof N f)) (zmul (zof N z1) (zof N F_))).
Proof. rewrite pl_padd', !negacyclic_zmul. reflexivity. Qed.
Lemma zpl_inj (a b : zpv N) : zpl a = zpl b -> a = b.
Proof. intros E. rewrite <- (ofl_pl Z 0 N a), <- (ofl_pl Z 0 N b), E. reflexivity. Qed.

Lemma coset_unique c z0 z1 z0' z1' : length c = N -> length z0 = N -> length z1 = N -> length z0' = N -> length z1' = N ->
  v1 c z0 z1 = v1 c z0' z1' -> v2 z0 z1 = v2 z0' z1' -> z0 = z0' /\ z1 = z1'.
Proof.
  intros Lc L0 L1 L0' L1' E1 E2. rewrite !v1_pl in E1 by exact Lc. rewrite !v2_pl in E2. apply zpl_inj in E1, E2. apply (alg_mid' _ _ _ _ _ _ _ zr) in E1.
  apply ntru_iff in HN. 
  destruct (alg_unique _ _ _ _ _ _ _ zr _ _ _ _ _ _ _ _ _ HN E2 E1) as [A B]. destruct (alg_unique _ _ _ _ _ _ _ zr _ _ _ _ _ _ _ (zof N z0') (zof N z1') HN eq_refl eq_refl) as [A' B'].
  assert (Hq : q <> 0) by discriminate.
  assert (X0 : zof N z0 = zof N z0') by (apply (cst_cancel N _ _ q Hq); rewrite A, A'; reflexivity).
  assert (X1 : zof N z1 = zof N z1') by (apply (cst_cancel N _ _ q Hq); rewrite B, B'; reflexivity).
  split; [rewrite <- (pl_of z0 L0), <- (pl_of z0' L0'), X0|rewrite <- (pl_of z1 L1), <- (pl_of z1' L1'), X1]; reflexivity.
Qed.

Lemma mod_zero (y : zpv N) : (forall p, (p < N)%nat -> P_ntt.ev lg (zpl y) p = q0) -> forall i, (i < N)%nat -> zc y i mod q = 0.
Proof.
  intros H i Hi. assert (E : modq (zpl y) = modq (repeat 0 N)).
  { apply (ev_inj lg); [exact Hlg|apply pl_length|apply repeat_length|]. intros p Hp. rewrite H by exact Hp. symmetry. apply ev_zero. intros j Hj. rewrite nth_repeat. reflexivity. }
  assert (E' := f_equal (fun l => nth i l 0) E). cbv beta in E'. rewrite !modq_nth, nth_repeat in E'. exact E'.
Qed.
Lemma coset_exists c s1 s2 : length c = N -> length s1 = N -> length s2 = N -> modq s1 = s1_residues lg c s2 h ->
  exists z0 z1, length z0 = N /\ length z1 = N /\ s1 = v1 c z0 z1 /\ s2 = v2 z0 z1.
Proof.
  intros Lc Ls1 Ls2 Hs. set (u := zsub (zof N c) (zof N s1)).
  assert (Eu : zpl u = Spec.psub N c s1) by (unfold u; rewrite pl_psub', !pl_of by assumption; reflexivity).
  assert (Es : forall p, (p < N)%nat -> P_ntt.ev lg (zpl u) p = qmul (P_ntt.ev lg s2 p) (P_ntt.ev lg h p)).
  { intros p Hp. rewrite Eu, ev_psub. assert (X : P_ntt.ev lg s1 p = qsub (P_ntt.ev lg c p) (qmul (P_ntt.ev lg s2 p) (P_ntt.ev lg h p))).
    { rewrite <- ev_modq, Hs. rewrite <- ev_mul by exact Hlg. rewrite <- ev_psub. rewrite <- (ev_modq lg (Spec.psub N c (negacyclic N s2 h))). f_equal.
      apply (list_ext 0); [rewrite modq_length; unfold s1_residues, Spec.psub; rewrite !tab_length; reflexivity|]. unfold s1_residues. rewrite tab_length. intros i Hi. rewrite modq_nth. unfold Spec.psub. rewrite !nth_tab by exact Hi. reflexivity. }
    rewrite X. ring. }
  assert (Ef : forall p, (p < N)%nat -> qmul (P_ntt.ev lg h p) (P_ntt.ev lg f p) = P_ntt.ev lg g p).
  { intros p Hp. rewrite <- ev_mul by exact Hlg. rewrite <- ev_modq, HP, ev_modq. reflexivity. }
  assert (EG : forall p, (p < N)%nat -> qmul (P_ntt.ev lg F_ p) (P_ntt.ev lg h p) = P_ntt.ev lg G_ p).
  { intros p Hp. assert (NZ : P_ntt.ev lg f p <> q0) by (apply (proj2 (invertible_iff lg f Hlg Lf) HI p Hp)). apply (q_cancel (P_ntt.ev lg f p)); [exact NZ|].
    assert (E2 : qmul (P_ntt.ev lg f p) (P_ntt.ev lg G_ p) = qmul (P_ntt.ev lg g p) (P_ntt.ev lg F_ p)).
    { rewrite <- !ev_mul by exact Hlg. assert (D : qsub (P_ntt.ev lg (negacyclic N f G_) p) (P_ntt.ev lg (negacyclic N g F_) p) = q0).
      { rewrite <- ev_psub. apply ev_zero. intros i Hi. unfold Spec.psub. rewrite nth_tab by exact Hi. rewrite HN by exact Hi. destruct (Nat.eqb i 0); [apply toq_eq; reflexivity|reflexivity]. }
      transitivity (qadd (qsub (P_ntt.ev lg (negacyclic N f G_) p) (P_ntt.ev lg (negacyclic N g F_) p)) (P_ntt.ev lg (negacyclic N g F_) p)); [ring|]. rewrite D. ring. }
    rewrite E2, <- (Ef p Hp). ring. }
  assert (Hq : q <> 0) by discriminate.
  destruct (cst_div N (zsub (zmul (zof N G_) (zof N s2)) (zmul (zof N F_) u)) q Hq) as [z0 E0].
  { apply mod_zero. intros p Hp. rewrite pl_psub', ev_psub. assert (X : zpl (zmul (zof N F_) u) = negacyclic N F_ (zpl u)) by (rewrite negacyclic_zmul, ofl_pl; reflexivity). rewrite X, <- negacyclic_zmul, !ev_mul, Es, <- EG by assumption. ring. }
  destruct (cst_div N (zsub (zmul (zof N f) u) (zmul (zof N g) (zof N s2))) q Hq) as [z1 E1].
  { apply mod_zero. intros p Hp. rewrite pl_psub', ev_psub. assert (X : zpl (zmul (zof N f) u) = negacyclic N f (zpl u)) by (rewrite negacyclic_zmul, ofl_pl; reflexivity). rewrite X, <- negacyclic_zmul, !ev_mul, Es, <- Ef by assumption. ring. }
  apply ntru_iff in HN. destruct (alg_solve _ _ _ _ _ _ _ zr _ _ _ _ _ _ _ _ _ HN E0 E1) as [A B]. apply (cst_cancel N _ _ q Hq) in A, B.
  exists (zpl z0), (zpl z1). split; [apply pl_length|]. split; [apply pl_length|]. rewrite v1_pl by exact Lc. rewrite v2_pl, !ofl_pl. split.
  - rewrite <- (alg_mid _ _ _ _ _ _ _ zr (zof N c) _ _ _ (eq_sym B)). unfold u.
    transitivity (zpl (zof N s1)); [symmetry; apply pl_of; exact Ls1|]. f_equal. apply (pv_ext Z 0). intros i Hi. rewrite !pc_sub by exact Hi. ring.
  - rewrite A. symmetry. apply pl_of. exact Ls2.
Qed.
End Coset.
