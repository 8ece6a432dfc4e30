(** P_pnorm.v -- the tree of calls of ff_sampling in exact arithmetic: every integer vector is the result of exactly one
    sequence of values, and the exponents of its calls add up to the squared norm. *)
From Verif Require Import Base Ring Poly Spec SpecR SpecS M_ff M_xform P_xform M_codec P_codec M_sig M_verify M_float M_exact P_exact M_samp M_fft M_ntru P_ntru M_tree P_tree P_brv P_cplx P_fft P_treex P_gs P_sign P_norm P_def P_prog.
From Coq Require Import Ring_theory Ring Lra.
Notation pev := Poly.pev.
Open Scope R_scope.

Definition zz h (a : zpv (2 ^ S h)) : list Cx * list Cx := (@ft h (pev Cx Czero (@emb (2 ^ S h) a)), @ft h (pod Cx Czero (@emb (2 ^ S h) a))).
Lemma zz_inj h a a' : (S h <= 10)%nat -> zz h a = zz h a' -> a = a'.
Proof.
  intros Hh E. assert (E0 : @ft h (pev Cx Czero (@emb (2 ^ S h) a)) = @ft h (pev Cx Czero (@emb (2 ^ S h) a'))) by (apply (f_equal fst E)).
  assert (E1 : @ft h (pod Cx Czero (@emb (2 ^ S h) a)) = @ft h (pod Cx Czero (@emb (2 ^ S h) a'))) by (apply (f_equal snd E)).
  apply ft_inj in E0; [|lia]. apply ft_inj in E1; [|lia]. apply emb_inj.
  transitivity (pint (pev Cx Czero (@emb (2 ^ S h) a)) (pod Cx Czero (@emb (2 ^ S h) a))); [symmetry; apply pint_eo|]. rewrite E0, E1. apply pint_eo.
Qed.

Lemma split_emb h (a : zpv (2 ^ S (S h))) : exists a0 a1 : zpv (2 ^ S h), pev Cx Czero (@emb (2 ^ S (S h)) a) = emb a0 /\ pod Cx Czero (@emb (2 ^ S (S h)) a) = emb a1.
Proof.
  assert (E2 : (2 ^ S (S h) = 2 * 2 ^ S h)%nat) by reflexivity.
  exists (mkp Z (2 ^ S h) (fun k => pc Z 0%Z a (2 * k))), (mkp Z (2 ^ S h) (fun k => pc Z 0%Z a (2 * k + 1))).
  split; apply (pv_ext Cx Czero); intros k Hk; change (k < 2 ^ S h)%nat in Hk.
  - unfold Poly.pev. rewrite pc_mkp by exact Hk. rewrite !emb_c by (exact Hk || lia). rewrite (pc_mkp Z) by exact Hk. reflexivity.
  - unfold pod. rewrite pc_mkp by exact Hk. rewrite !emb_c by (exact Hk || lia). rewrite (pc_mkp Z) by exact Hk. reflexivity.
Qed.

Section Samp.
Variables (T : list Cx) (sigma : R).
Hypothesis Hsigma : sigma <> 0.
Notation pgm h lvl a b off := (ff_prog RF exact_table T h lvl a b off).

Record pclaim (h lvl off : nat) (d : nat -> R) (ls : list Cx) : Prop := {
  pc_res : forall (p : cpv (2 ^ S h)) (cs : list call) z, creal p -> pcalls (pgm h lvl (@ft h (pev Cx Czero p)) (@ft h (pod Cx Czero p)) off) cs z ->
    exists a : zpv (2 ^ S h), z = zz h a /\ length cs = (2 ^ S h)%nat /\ map stddev cs = twice (rev (map (fun x : Cx => fst x) ls)) /\
    energy cs = / (2 * (sigma * sigma)) * (Rsum (2 ^ S h) (fun i => d i * sq (Csub (@ev (S h) p i) (@ev (S h) (emb a) i))) / INR (2 ^ S h));
  pc_ex : forall (p : cpv (2 ^ S h)) (a : zpv (2 ^ S h)), creal p -> exists cs : list call, pcalls (pgm h lvl (@ft h (pev Cx Czero p)) (@ft h (pod Cx Czero p)) off) cs (zz h a);
  pc_un : forall (p : cpv (2 ^ S h)) (a : zpv (2 ^ S h)) (cs cs' : list call), creal p -> pcalls (pgm h lvl (@ft h (pev Cx Czero p)) (@ft h (pod Cx Czero p)) off) cs (zz h a) ->
    pcalls (pgm h lvl (@ft h (pev Cx Czero p)) (@ft h (pod Cx Czero p)) off) cs' (zz h a) -> cs = cs'
}.

(** ** a node *)
Section Node.
Variables (h lvl off : nat) (l : list Cx) (p0 p1 pl : cpv (2 ^ S h)).
Hypothesis Hh : (S h <= 10)%nat.
Hypothesis LT : (off + 2 ^ S h <= length T)%nat.
Hypothesis Ll : length l = (2 ^ S h)%nat.
Hypothesis Hl : forall i, (i < 2 ^ S h)%nat -> nth (off + i) T Czero = nth i l Czero.
Hypothesis El : l = ft pl.
Notation Tl := (off + 2 ^ (lvl + S h))%nat.
Notation Tr := (off + 2 ^ (lvl + S h) + 2 ^ h)%nat.
Definition pnx (a1 : zpv (2 ^ S h)) : cpv (2 ^ S h) := cpadd p0 (cpmul (cpsub p1 (emb a1)) pl).
Definition mid (zr : list Cx * list Cx) : res (list Cx * list Cx * list Cx) :=
  (merged_z1 <- merge_fft RF exact_table (S h) (fst zr) (snd zr) (fresh RF (2 ^ S h)) ;;
   tmp0 <- cpoly_sub RF (S h) (ft p1) merged_z1 (fresh RF (2 ^ S h)) ;;
   tmp1 <- cpoly_mul RF (S h) tmp0 (ft pl) (fresh RF (2 ^ S h)) ;;
   tmp0 <- cpoly_add RF (S h) (ft p0) tmp1 tmp0 ;;
   '(t0_0, t0_1) <- split_fft RF exact_table (S h) tmp0 (fresh RF (2 ^ h)) (fresh RF (2 ^ h)) ;; Ok (merged_z1, t0_0, t0_1)).
Definition last (m1 : list Cx) (zl : list Cx * list Cx) : prog RF (list Cx * list Cx) :=
  pbind (lift (merge_fft RF exact_table (S h) (fst zl) (snd zl) (fresh RF (2 ^ S h)))) (fun m0 => Ret (m0, m1)).
Lemma node_prog : pgm (S h) lvl (ft p0) (ft p1) off =
  pbind (pgm h (S lvl) (@ft h (pev Cx Czero p1)) (@ft h (pod Cx Czero p1)) Tr) (fun zr => pbind (lift (mid zr)) (fun u =>
    pbind (pgm h (S lvl) (snd (fst u)) (snd u) Tl) (last (fst (fst u))))).
Proof.
  cbn [ff_prog]. rewrite half_pow2. rewrite <- Nat.pow_add_r.
  assert (LF : @length Cx (fresh RF (2 ^ h)) = (2 ^ h)%nat) by apply repeat_length.
  destruct (rds_total (T : list (D RF * D RF)) (2 ^ S h) off LT) as [lT Er]. rewrite Er. cbn [lift pbind].
  assert (E : lT = ft pl).
  { destruct (rds_inv Czero (T : list Cx) _ _ _ Er) as [L1 N1]. rewrite <- El.
    apply (@list_ext Cx Czero); [rewrite Ll; exact L1|]. intros i Hi. change (i < @length Cx lT)%nat in Hi. assert (i < 2 ^ S h)%nat by (rewrite <- L1; exact Hi).
    etransitivity; [apply N1; assumption|]. apply Hl. assumption. }
  subst lT. rewrite split_ok by assumption. cbn [lift pbind fst snd]. reflexivity.
Qed.
Lemma LF0 : @length Cx (fresh RF (2 ^ h)) = (2 ^ h)%nat. Proof. apply repeat_length. Qed.
Lemma LF1 : @length Cx (fresh RF (2 ^ S h)) = (2 ^ S h)%nat. Proof. apply repeat_length. Qed.
Lemma mid_ok a1 : mid (zz h a1) = Ok (ft (emb a1), @ft h (pev Cx Czero (pnx a1)), @ft h (pod Cx Czero (pnx a1))).
Proof.
  assert (LF := LF0). assert (LF' := LF1). unfold mid, zz. cbn [fst snd]. rewrite merge_ok by assumption. cbn [bind]. rewrite pint_eo. change (2 * 2 ^ h)%nat with (2 ^ S h)%nat.
  rewrite cpoly_sub_ok by assumption. cbn [bind]. rewrite cpoly_mul_ok by assumption. cbn [bind]. rewrite cpoly_add_ok by apply ft_length. cbn [bind]. rewrite split_ok by assumption. reflexivity.
Qed.
Lemma last_ok m1 a0 : last m1 (zz h a0) = Ret (ft (emb a0), m1).
Proof. assert (LF' := LF1). unfold last, zz. cbn [fst snd]. rewrite merge_ok by assumption. rewrite pint_eo. reflexivity. Qed.

Variables (da db : nat -> R) (la lb : list Cx).
Hypothesis Ca : pclaim h (S lvl) Tl da la.
Hypothesis Cb : pclaim h (S lvl) Tr db lb.
Hypotheses (H0 : herm p0) (H1 : herm p1) (Hp : herm pl).
Lemma real_p1 : creal p1. Proof. apply (herm_real (S h)); assumption. Qed.
Lemma real_pnx a1 : creal (pnx a1).
Proof. apply (herm_real (S h)); [assumption|]; unfold pnx; apply herm_add; [assumption|]; apply herm_mul; [|assumption]; apply herm_sub; [assumption|apply herm_emb]. Qed.
(** the calls of a node: those on the right, then those on the left *)
Lemma node_calls (cs : list call) z : pcalls (pgm (S h) lvl (ft p0) (ft p1) off) cs z <->
  exists (a0 a1 : zpv (2 ^ S h)) (csr csl : list call), z = (ft (emb a0), ft (emb a1)) /\ cs = csr ++ csl /\
    pcalls (pgm h (S lvl) (@ft h (pev Cx Czero p1)) (@ft h (pod Cx Czero p1)) Tr) csr (zz h a1) /\
    pcalls (pgm h (S lvl) (@ft h (pev Cx Czero (pnx a1))) (@ft h (pod Cx Czero (pnx a1))) Tl) csl (zz h a0).
Proof.
  rewrite node_prog, pcalls_bind. split.
  - intros (csr & zr & c2 & -> & Hr & H). destruct (pc_res _ _ _ _ _ Cb p1 csr zr real_p1 Hr) as (a1 & -> & _). rewrite mid_ok in H. cbn [lift pbind fst snd] in H.
    apply pcalls_bind in H. destruct H as (csl & zl & c3 & -> & Hl' & H). destruct (pc_res _ _ _ _ _ Ca (pnx a1) csl zl (real_pnx a1) Hl') as (a0 & -> & _). rewrite last_ok in H. cbn [pcalls] in H. destruct H as [-> ->].
    exists a0, a1, csr, csl. rewrite app_nil_r. auto.
  - intros (a0 & a1 & csr & csl & -> & -> & Hr & Hl'). exists csr, (zz h a1), csl. split; [reflexivity|]. split; [exact Hr|]. rewrite mid_ok. cbn [lift pbind fst snd]. apply pcalls_bind. exists csl, (zz h a0), []. rewrite app_nil_r.
    split; [reflexivity|]. split; [exact Hl'|]. rewrite last_ok. cbn [pcalls]. auto.
Qed.
Lemma node_res (cs : list call) z : pcalls (pgm (S h) lvl (ft p0) (ft p1) off) cs z ->
  exists a0 a1 : zpv (2 ^ S h), z = (ft (emb a0), ft (emb a1)) /\ length cs = (2 * 2 ^ S h)%nat /\ map stddev cs = twice (rev (map (fun x : Cx => fst x) (la ++ lb))) /\
    energy cs = / (2 * (sigma * sigma)) * (Rsum (2 ^ S h) (fun i =>
      let x0 := Csub (ev p0 i) (ev (emb a0) i) in let x1 := Csub (ev p1 i) (ev (emb a1) i) in
      da i * sq (Cadd x0 (Cmul x1 (ev pl i))) + db i * sq x1) / INR (2 ^ S h)).
Proof.
  intros H. apply node_calls in H. destruct H as (a0 & a1 & csr & csl & -> & -> & Hr & Hl').
  destruct (pc_res _ _ _ _ _ Cb p1 csr _ real_p1 Hr) as (b1 & Eb1 & Lr & Dr & Er1). destruct (pc_res _ _ _ _ _ Ca (pnx a1) csl _ (real_pnx a1) Hl') as (b0 & Eb0 & Lc & Dl & El1).
  apply zz_inj in Eb1; [|exact Hh]. apply zz_inj in Eb0; [|exact Hh]. subst b0 b1.
  exists a0, a1. split; [reflexivity|]. split; [rewrite app_length, Lr, Lc; lia|]. split; [rewrite map_app, Dr, Dl, map_app, rev_app_distr, twice_app; reflexivity|].
  rewrite energy_app, Er1, El1. cbv zeta. rewrite (rsum_add _ _ _ _ _ _ _ RTheory).
  assert (Ep : Rsum (2 ^ S h) (fun i => da i * sq (Csub (ev (pnx a1) i) (ev (emb a0) i))) =
    Rsum (2 ^ S h) (fun i => da i * sq (Cadd (Csub (ev p0 i) (ev (emb a0) i)) (Cmul (Csub (ev p1 i) (ev (emb a1) i)) (ev pl i))))).
  { apply rsum_ext. intros i Hi. unfold pnx. rewrite ev_add, ev_mul, ev_sub. f_equal. f_equal.
    generalize (ev p0 i) (ev (emb a0) i) (ev p1 i) (ev (emb a1) i) (ev pl i). intros [? ?] [? ?] [? ?] [? ?] [? ?]. apply Cx_eq; cx; ring. }
  rewrite Ep. unfold Rdiv. ring.
Qed.
Lemma node_ex (a0 a1 : zpv (2 ^ S h)) : exists cs : list call, pcalls (pgm (S h) lvl (ft p0) (ft p1) off) cs (ft (emb a0), ft (emb a1)).
Proof.
  destruct (pc_ex _ _ _ _ _ Cb p1 a1 real_p1) as [csr Hr]. destruct (pc_ex _ _ _ _ _ Ca (pnx a1) a0 (real_pnx a1)) as [csl Hl'].
  exists (csr ++ csl). apply node_calls. exists a0, a1, csr, csl. auto.
Qed.
Lemma node_un (a0 a1 : zpv (2 ^ S h)) (cs cs' : list call) : pcalls (pgm (S h) lvl (ft p0) (ft p1) off) cs (ft (emb a0), ft (emb a1)) ->
  pcalls (pgm (S h) lvl (ft p0) (ft p1) off) cs' (ft (emb a0), ft (emb a1)) -> cs = cs'.
Proof.
  intros H H'. apply node_calls in H. apply node_calls in H'. destruct H as (b0 & b1 & csr & csl & E & -> & Hr & Hl1). destruct H' as (b0' & b1' & csr' & csl' & E' & -> & Hr' & Hl1').
  assert (X0 := f_equal fst E). assert (X1 := f_equal snd E). assert (X0' := f_equal fst E'). assert (X1' := f_equal snd E'). cbn [fst snd] in *.
  apply ft_inj in X0, X1, X0', X1'; try exact Hh. apply emb_inj in X0, X1, X0', X1'. subst b0 b1 b0' b1'.
  f_equal; [exact (pc_un _ _ _ _ _ Cb p1 a1 csr csr' real_p1 Hr Hr')|exact (pc_un _ _ _ _ _ Ca (pnx a1) a0 csl csl' (real_pnx a1) Hl1 Hl1')].
Qed.
End Node.

(** ** subtrees *)
Lemma base_prog lvl off (p : cpv (2 ^ 1)) x : rd T off = Ok x -> pgm 0 lvl (@ft 0 (pev Cx Czero p)) (@ft 0 (pod Cx Czero p)) off =
  Call (fst (cc p 0) : D RF) (fst x : D RF) (fun u => Call (fst (cc p 1) : D RF) (fst x : D RF) (fun v => Ret ([cof RF (fofz RF u)], [cof RF (fofz RF v)]))).
Proof.
  intros Hx.
  assert (Ea : rd (@ft 0 (pev Cx Czero p)) 0 = Ok (cc p 0)).
  { rewrite (rd_Ok _ _ Czero) by (rewrite ft_length; simpl; lia). f_equal. etransitivity; [apply (nth_ft 0); simpl; lia|]. rewrite ev0. unfold Poly.pev. rewrite pc_mkp by (simpl; lia). reflexivity. }
  assert (Eb : rd (@ft 0 (pod Cx Czero p)) 0 = Ok (cc p 1)).
  { rewrite (rd_Ok _ _ Czero) by (rewrite ft_length; simpl; lia). f_equal. etransitivity; [apply (nth_ft 0); simpl; lia|]. rewrite ev0. unfold pod. rewrite pc_mkp by (simpl; lia). reflexivity. }
  cbn [ff_prog]. change (D RF * D RF)%type with Cx in *. rewrite Hx, Ea, Eb. reflexivity.
Qed.
Lemma base_claim lvl off d : (forall i, (i < 2 ^ 1)%nat -> 0 < d i) -> d 1%nat = d 0%nat -> (off < length T)%nat ->
  stored RF (2 ^ (lvl + 0)) 0 T off (ntree RF sigma (sub 0 (rv (2 ^ 1) d))) ->
  pclaim 0 lvl off d (leaves (ntree RF sigma (sub 0 (rv (2 ^ 1) d)))).
Proof.
  intros Hd Es LT St. cbn [sub ntree stored P_tree.leaves] in *. rewrite rv_nth in St by (simpl; lia). rewrite rv_nth by (simpl; lia).
  assert (D0 := Hd 0%nat ltac:(simpl; lia)).
  assert (exists x, rd T off = Ok x /\ fst x = sigma / sqrt (d 0%nat)) as [x [Hx Ex]].
  { destruct (nth_error T off) as [x|] eqn:E; [|apply nth_error_None in E; lia]. exists x. unfold rd. rewrite E. split; [reflexivity|].
    apply nth_error_nth with (d := c0 RF) in E. rewrite <- E. change (nth off T (c0 RF)) with (nth off (T : list (D RF * D RF)) (c0 RF)). rewrite St. reflexivity. }
  assert (Zc : forall (A : zpv (2 ^ 1)) u v, pc Z 0%Z A 0 = u -> pc Z 0%Z A 1 = v -> ([cof RF (fofz RF u)], [cof RF (fofz RF v)]) = zz 0 A).
  { intros A u v A0 A1. unfold zz. rewrite !ft_single. f_equal; f_equal; apply (pv_ext Cx Czero); intros k Hk; simpl in Hk; assert (k = 0)%nat by lia; subst k.
    - unfold Poly.pev. rewrite pc_mkp by (simpl; lia). rewrite !emb_c by (simpl; lia). change (2 * 0)%nat with 0%nat; rewrite A0; reflexivity.
    - unfold pod. rewrite pc_mkp by (simpl; lia). rewrite !emb_c by (simpl; lia). change (2 * 0 + 1)%nat with 1%nat; rewrite A1; reflexivity. }
  assert (Co : forall u v (A : zpv (2 ^ 1)), ([cof RF (fofz RF u)], [cof RF (fofz RF v)]) = zz 0 A -> pc Z 0%Z A 0 = u /\ pc Z 0%Z A 1 = v).
  { intros u v A E. assert (K := Zc (ofl Z 0%Z 2 [u; v]) u v eq_refl eq_refl). rewrite K in E. apply zz_inj in E; [|lia]. subst A. split; reflexivity. }
  split.
  - intros p cs z Hp H. rewrite (base_prog lvl off p x Hx) in H. cbn [pcalls] in H. destruct H as (u & r & -> & v & r' & -> & -> & ->).
    set (A := ofl Z 0%Z 2 [u; v] : zpv (2 ^ 1)). exists A. split; [apply Zc; reflexivity|]. split; [reflexivity|].
    split. { cbn [map rev app twice flat_map stddev fst snd nleaf]. rewrite Ex. reflexivity. }
    assert (C0 : cc (@emb (2 ^ 1) A) 0 = Cz u) by (rewrite emb_c by (simpl; lia); reflexivity).
    assert (C1 : cc (@emb (2 ^ 1) A) 1 = Cz v) by (rewrite emb_c by (simpl; lia); reflexivity). clearbody A.
    assert (Pv := parseval 1 (cpsub p (emb A))).
    assert (Ed : Rsum (2 ^ 1) (fun i => d i * sq (Csub (@ev 1 p i) (@ev 1 (emb A) i))) =
       d 0%nat * Rsum (2 ^ 1) (fun i => sq (@ev 1 (cpsub p (emb A)) i))).
    { rewrite <- Rsum_scal. apply rsum_ext. intros i Hi. rewrite ev_sub. f_equal. simpl in Hi. assert (i = 0 \/ i = 1)%nat as [->| ->] by lia; [reflexivity|exact Es]. }
    rewrite Ed, Pv. assert (P2 : Rsum (2 ^ 1) (fun j => sq (cc (cpsub p (emb A)) j)) = 0 + sq (Csub (cc p 0) (cc (@emb (2 ^ 1) A) 0)) + sq (Csub (cc p 1) (cc (@emb (2 ^ 1) A) 1))).
    { assert (X : forall k, (k < 2 ^ 1)%nat -> cc (cpsub p (emb A)) k = Csub (cc p k) (cc (@emb (2 ^ 1) A) k)) by (intros k Hk; apply pc_sub; exact Hk).
      rewrite (rsum_ext _ _ _ _ _ (fun k => sq (Csub (cc p k) (cc (@emb (2 ^ 1) A) k)))) by (intros k Hk; rewrite X by exact Hk; reflexivity). reflexivity. }
    rewrite P2.
    assert (R0 : snd (cc p 0) = 0) by (apply Hp; simpl; lia). assert (R1 : snd (cc p 1) = 0) by (apply Hp; simpl; lia).
    assert (Q0 : sq (Csub (cc p 0) (cc (@emb (2 ^ 1) A) 0)) = (fst (cc p 0) - IZR u) * (fst (cc p 0) - IZR u)).
    { rewrite C0. unfold sq, Csub, Cz. revert R0. generalize (cc p 0). intros [r s] R0. cbn in *. rewrite R0. ring. }
    assert (Q1 : sq (Csub (cc p 1) (cc (@emb (2 ^ 1) A) 1)) = (fst (cc p 1) - IZR v) * (fst (cc p 1) - IZR v)).
    { rewrite C1. unfold sq, Csub, Cz. revert R1. generalize (cc p 1). intros [r s] R1. cbn in *. rewrite R1. ring. }
    rewrite Q0, Q1. change (2 ^ 1)%nat with 2%nat.
    unfold energy. cbn [fold_right centre stddev outcome fst snd]. rewrite Ex.
    assert (S0 := sqrt_lt_R0 _ D0). assert (SS := sqrt_sqrt (d 0%nat) ltac:(lra)).
    replace (sigma / sqrt (d 0%nat) * (sigma / sqrt (d 0%nat))) with (sigma * sigma / d 0%nat); [simpl (INR 2); field; split; lra|].
    rewrite <- SS at 1. field. lra.
  - intros p a Hp. rewrite (base_prog lvl off p x Hx). exists [(fst (cc p 0), fst x, pc Z 0%Z a 0); (fst (cc p 1), fst x, pc Z 0%Z a 1)]. cbn [pcalls]. eexists _, _. split; [reflexivity|]. eexists _, _. split; [reflexivity|]. split; [reflexivity|].
    symmetry. apply Zc; reflexivity.
  - intros p a cs cs' Hp H H'. rewrite (base_prog lvl off p x Hx) in H, H'. cbn [pcalls] in H, H'. destruct H as (u & r & -> & v & r' & -> & -> & E). destruct H' as (u' & s & -> & v' & s' & -> & -> & E').
    symmetry in E, E'. apply Co in E. apply Co in E'. destruct E as [<- <-], E' as [<- <-]. reflexivity.
Qed.
Lemma sub_pclaim : forall h lvl off d, (S h <= 10)%nat -> (forall i, (i < 2 ^ S h)%nat -> 0 < d i) ->
  (forall i, (i < 2 ^ S h)%nat -> d (2 ^ S h - 1 - i)%nat = d i) -> (off + h * 2 ^ (lvl + h) + 2 ^ h <= length T)%nat ->
  stored RF (2 ^ (lvl + h)) h T off (ntree RF sigma (sub h (rv (2 ^ S h) d))) ->
  pclaim h lvl off d (leaves (ntree RF sigma (sub h (rv (2 ^ S h) d)))).
Proof.
  induction h as [|h IH]; intros lvl off d Hh Hd Hs LT St.
  - apply base_claim; [exact Hd| |simpl in LT; lia|exact St]. assert (E := Hs 0%nat ltac:(simpl; lia)). exact E.
  - assert (P2 := pow2_pos (S h)).
    assert (E2 : (2 ^ S (S h) = 2 * 2 ^ S h)%nat) by reflexivity. assert (E3 : (2 ^ S h = 2 * 2 ^ h)%nat) by reflexivity.
    assert (Hd' : forall i, (i < 2 * 2 ^ S h)%nat -> 0 < d i) by (intros; apply Hd; lia).
    assert (Es : sub (S h) (rv (2 ^ S (S h)) d) = Node RF (vl10 RF (2 ^ S h) (rv (2 ^ S h) (am2 d)) (map (cconj RF) (vspl1 RF exact_table (S h) (rv (2 ^ S (S h)) d))))
       (sub h (rv (2 ^ S h) (am2 d))) (sub h (rv (2 ^ S h) (hm2 d)))).
    { change (sub (S h) (rv (2 ^ S (S h)) d)) with
        (ltree RF exact_table (S h) (vspl0 RF (S h) (rv (2 ^ S (S h)) d)) (map (cconj RF) (vspl1 RF exact_table (S h) (rv (2 ^ S (S h)) d))) (map (cconj RF) (vspl0 RF (S h) (rv (2 ^ S (S h)) d)))).
      rewrite spl0_rv, rv_conj, ltree_sub. change (fun i => (d (2 * i)%nat + d (2 * i + 1)%nat) / 2) with (am2 d). f_equal. f_equal.
      etransitivity; [apply d11_rv; intros i Hi; apply Rgt_not_eq; apply (am2_pos (2 ^ S h)); assumption|].
      apply tab_ext. intros i Hi. apply (f_equal Cof). unfold hm2. f_equal. f_equal. apply spl1_rv; assumption. }
    rewrite Es in St |- *. cbn [ntree stored] in St. cbn [ntree P_tree.leaves]. destruct St as [Ll [Nl [Sa Sb]]].
    set (l := vl10 _ _ _ _) in *.
    assert (Hs' : forall i, (i < 2 ^ S h)%nat -> d (2 * (2 ^ S h - 1 - i))%nat = d (2 * i + 1)%nat /\ d (2 * (2 ^ S h - 1 - i) + 1)%nat = d (2 * i)%nat).
    { intros i Hi. split; [rewrite <- (Hs (2 * i + 1)%nat) by lia|rewrite <- (Hs (2 * i)%nat) by lia]; f_equal; lia. }
    assert (Sam : forall i, (i < 2 ^ S h)%nat -> am2 d (2 ^ S h - 1 - i) = am2 d i).
    { intros i Hi. unfold am2. destruct (Hs' i Hi) as [-> ->]. lra. }
    destruct (herm_list (S h) l ltac:(lia) Ll) as [pl [El Hpl]].
    { intros i Hi. unfold l. rewrite !sub_l10 by (assumption || lia). rewrite Sam by exact Hi. destruct (Hs' i Hi) as [-> ->].
      replace (2 * (2 ^ S h - 1 - i))%nat with (2 ^ S (S h) - 1 - (2 * i + 1))%nat by lia. rewrite pt_compl by lia. rewrite pt_odd.
      assert (Pm := am2_pos _ d P2 Hd' i Hi). revert Pm.
      generalize (pt (S (S h)) (2 * i)) (am2 d i). intros [x y] m Pm. apply Cx_eq; unfold Cof; cx; field; lra. }
    assert (Ew : (2 ^ (lvl + S h) = 2 ^ (S lvl + h))%nat) by (f_equal; lia).
    assert (Ew2 : (2 ^ S h <= 2 ^ (lvl + S h))%nat) by (apply Nat.pow_le_mono_r; lia).
    assert (LTn : (off + 2 ^ S h <= length T)%nat) by (simpl Nat.mul in LT; lia).
    assert (Ca : pclaim h (S lvl) (off + 2 ^ (lvl + S h)) (am2 d) (leaves (ntree RF sigma (sub h (rv (2 ^ S h) (am2 d)))))).
    { apply IH; [lia|intros i Hi; apply (am2_pos (2 ^ S h)); assumption|exact Sam|rewrite <- Ew; simpl Nat.mul in LT; lia|]. rewrite Ew in Sa |- *. exact Sa. }
    assert (Cb : pclaim h (S lvl) (off + 2 ^ (lvl + S h) + 2 ^ h) (hm2 d) (leaves (ntree RF sigma (sub h (rv (2 ^ S h) (hm2 d)))))).
    { apply IH; [lia|intros i Hi; apply (hm2_pos (2 ^ S h)); assumption| |rewrite <- Ew; simpl Nat.mul in LT; lia|].
      - intros i Hi. unfold hm2. rewrite Sam by exact Hi. destruct (Hs' i Hi) as [-> ->]. unfold Rdiv. ring.
      - rewrite Ew in Sb |- *. exact Sb. }
    assert (Hr : forall p : cpv (2 ^ S (S h)), creal p -> herm (pev Cx Czero p : cpv (2 ^ S h)) /\ herm (pod Cx Czero p : cpv (2 ^ S h))).
    { intros p Hp. split; [apply real_herm, real_pev, Hp|apply real_herm, real_pod, Hp]. }
    split.
    + intros p cs z Hp H. destruct (Hr p Hp) as [H0 H1].
      destruct (node_res h lvl off l _ _ pl ltac:(lia) LTn Ll Nl El _ _ _ _ Ca Cb H0 H1 Hpl cs z H) as (a0 & a1 & -> & Lc & Dc & Ec).
      destruct (emb_pint (S h) a0 a1) as [a Ea]. exists a.
      assert (Eev : pev Cx Czero (@emb (2 ^ S (S h)) a) = emb a0) by (rewrite Ea; apply pev_pint).
      assert (Eod : pod Cx Czero (@emb (2 ^ S (S h)) a) = emb a1) by (rewrite Ea; apply pod_pint).
      split; [unfold zz; rewrite Eev, Eod; reflexivity|]. split; [rewrite Lc; lia|]. split; [exact Dc|].
      rewrite Ec. f_equal.
      assert (PI0 := INR_pow2_pos (S h)).
      match goal with |- ?A / _ = rsum R 0 Rplus _ ?B / _ => assert (K : A = / 2 * Rsum (2 * 2 ^ S h) B) end.
      { rewrite Rsum_pairs. rewrite <- Rsum_scal. apply rsum_ext. intros i Hi. cbv zeta.
        assert (Lpl : ev pl i = Cmul (Cof ((d (2 * i)%nat - d (2 * i + 1)%nat) / (2 * am2 d i))) (pt (S (S h)) (2 * i))).
        { rewrite <- (nth_ft (S h) pl i Hi), <- El. unfold l. apply sub_l10; assumption. }
        rewrite Lpl, (hm2_val (2 ^ S h)) by assumption.
        rewrite (step_identity (d (2 * i)%nat) (d (2 * i + 1)%nat)); [|apply Hd; lia|apply Hd; lia|reflexivity|apply sq_pt].
        rewrite !ev_even, !ev_odd, Eev, Eod.
        generalize (ev (pev Cx Czero p : cpv (2 ^ S h)) i) (ev (pod Cx Czero p : cpv (2 ^ S h)) i) (ev (emb a0) i) (ev (emb a1) i) (pt (S (S h)) (2 * i)).
        intros [? ?] [? ?] [? ?] [? ?] [? ?]. unfold sq. cx. ring. }
      rewrite K. replace (INR (2 ^ S (S h))) with (2 * INR (2 ^ S h)) by (rewrite E2, mult_INR; reflexivity). change (2 ^ S (S h))%nat with (2 * 2 ^ S h)%nat. field. lra.
    + intros p a Hp. destruct (Hr p Hp) as [H0 H1]. destruct (split_emb h a) as (a0 & a1 & E0 & E1). unfold zz. rewrite E0, E1.
      exact (node_ex h lvl off l _ _ pl ltac:(lia) LTn Ll Nl El _ _ _ _ Ca Cb H0 H1 Hpl a0 a1).
    + intros p a cs cs' Hp. destruct (Hr p Hp) as [H0 H1]. destruct (split_emb h a) as (a0 & a1 & E0 & E1). unfold zz. rewrite E0, E1.
      exact (node_un h lvl off l _ _ pl ltac:(lia) LTn Ll Nl El _ _ _ _ Ca Cb H0 H1 Hpl a0 a1 cs cs').
Qed.
End Samp.

(** ** the root *)
Section Root.
Variable h : nat.
Notation lg := (S h).
Hypothesis Hlg : (lg <= 10)%nat.
Variables f g F_ G_ : list Z.
Notation N := (2 ^ lg)%nat.
Hypotheses (Lf : length f = N) (Lg : length g = N) (LF : length F_ = N) (LG : length G_ = N).
Hypothesis HN : ntru N f g F_ G_.
Variables (T : list Cx) (sigma : R) (c : list Z).
Hypothesis Hs : sigma <> 0.
Hypothesis LT : ((lg + 1) * N <= length T)%nat.
Hypothesis St : stored RF N lg T 0 (ntree RF sigma (root_tree lg f g F_ G_)).
Notation rprog := (ff_prog RF exact_table T lg 0 (ft (tp0 lg F_ c)) (ft (tp1 lg f c)) 0).
Notation rl := (vl10 RF N (rv N (dd lg f g)) (vgram RF N (ft (emb (ofl Z 0%Z N G_))) (ft (cpopp (emb (ofl Z 0%Z N F_)))) (ft (emb (ofl Z 0%Z N g))) (ft (cpopp (emb (ofl Z 0%Z N f)))))).
Notation lva := (leaves (ntree RF sigma (sub h (rv N (dd lg f g))))).
Notation lvb := (leaves (ntree RF sigma (sub h (rv N (ddo lg f g))))).
Lemma dd_p i : 0 < dd lg f g i. Proof. eapply dd_pos; eassumption. Qed.
Lemma ddo_p i : 0 < ddo lg f g i. Proof. unfold ddo. apply Rdiv_lt_0_compat; [apply qq_pos|apply dd_p]. Qed.
Lemma ddo_sym i : (i < N)%nat -> ddo lg f g (N - 1 - i) = ddo lg f g i.
Proof. intros Hi. unfold ddo. rewrite dd_sym by exact Hi. reflexivity. Qed.
Lemma root_parts : exists pl : cpv N, length rl = N /\ (forall i, (i < N)%nat -> nth (0 + i) T Czero = nth i rl Czero) /\ rl = ft pl /\ herm pl /\
  stored RF N h T (0 + N) (ntree RF sigma (sub h (rv N (dd lg f g)))) /\ stored RF N h T (0 + N + 2 ^ h) (ntree RF sigma (sub h (rv N (ddo lg f g)))) /\
  leaves (ntree RF sigma (root_tree lg f g F_ G_)) = lva ++ lvb.
Proof.
  assert (St' := St). rewrite (root_tree_node h f g F_ G_ HN) in St' |- *. cbn [ntree stored] in St'. cbn [ntree P_tree.leaves]. destruct St' as [Ll [Nl [Sa Sb]]].
  assert (Hsym : forall i, (i < N)%nat -> wv h f g F_ G_ (N - 1 - i) = Cconj (wv h f g F_ G_ i)).
  { intros i Hi. unfold wv. rewrite !ev_compl by exact Hi. rewrite Cconj_add, !Cconj_mul. reflexivity. }
  destruct (herm_list lg _ Hlg Ll) as [pl [El Hpl]].
  { intros i Hi. assert (PN := pow2_pos lg). etransitivity; [apply root_l10; (assumption || lia)|]. etransitivity; [|symmetry; apply f_equal; apply root_l10; assumption]. rewrite Hsym by exact Hi. rewrite dd_sym by exact Hi.
    generalize (dd_p i). generalize (dd lg f g i) (wv h f g F_ G_ i). intros d [u v] P. apply Cx_eq; cx; field; lra. }
  exists pl. split; [exact Ll|]. split; [exact Nl|]. split; [exact El|]. split; [exact Hpl|]. split; [exact Sa|]. split; [exact Sb|]. reflexivity.
Qed.
Lemma root_LT : (0 + N <= length T)%nat /\ (0 + N + h * 2 ^ (1 + h) + 2 ^ h <= length T)%nat /\ (0 + N + 2 ^ h + h * 2 ^ (1 + h) + 2 ^ h <= length T)%nat.
Proof. assert (E : (2 ^ S h = 2 * 2 ^ h)%nat) by reflexivity. change (1 + h)%nat with (S h). simpl Nat.mul in LT. repeat split; nia. Qed.
Lemma root_a : pclaim T sigma h 1 (0 + N) (dd lg f g) lva.
Proof.
  destruct root_parts as (_ & _ & _ & _ & _ & Sa & _). apply sub_pclaim; [exact Hs|exact Hlg|intros; apply dd_p|intros; apply dd_sym; assumption|apply root_LT|exact Sa].
Qed.
Lemma root_b : pclaim T sigma h 1 (0 + N + 2 ^ h) (ddo lg f g) lvb.
Proof.
  destruct root_parts as (_ & _ & _ & _ & _ & _ & Sb & _). apply sub_pclaim; [exact Hs|exact Hlg|intros; apply ddo_p|exact ddo_sym|apply root_LT|exact Sb].
Qed.
Lemma root_res (cs : list call) z : pcalls rprog cs z -> exists a0 a1 : zpv N, z = (ft (emb a0), ft (emb a1)) /\ length cs = (2 * N)%nat /\
  map stddev cs = twice (rev (map (fun x : Cx => fst x) (leaves (ntree RF sigma (root_tree lg f g F_ G_))))) /\
  energy cs = / (2 * (sigma * sigma)) * IZR (sqnorm (pl Z N (sv0 lg g G_ c a0 a1)) + sqnorm (pl Z N (sv1 lg f F_ a0 a1))).
Proof.
  intros H. destruct root_parts as (pl & Ll & Nl & El & Hpl & _ & _ & ->).
  destruct (node_res T sigma h 0 0 rl _ _ pl Hlg (proj1 root_LT) Ll Nl El _ _ _ _ root_a root_b (herm_tp0 h F_ c) (herm_tp1 h f c) Hpl cs z H) as (a0 & a1 & -> & Lc & Dc & Ec).
  exists a0, a1. split; [reflexivity|]. split; [exact Lc|]. split; [exact Dc|]. rewrite Ec. f_equal. apply root_quad; assumption.
Qed.
Lemma root_ex (a0 a1 : zpv N) : exists cs : list call, pcalls rprog cs (ft (emb a0), ft (emb a1)).
Proof.
  destruct root_parts as (pl & Ll & Nl & El & Hpl & _).
  exact (node_ex T sigma h 0 0 rl _ _ pl Hlg (proj1 root_LT) Ll Nl El _ _ _ _ root_a root_b (herm_tp0 h F_ c) (herm_tp1 h f c) Hpl a0 a1).
Qed.
Lemma root_un (a0 a1 : zpv N) (cs cs' : list call) : pcalls rprog cs (ft (emb a0), ft (emb a1)) -> pcalls rprog cs' (ft (emb a0), ft (emb a1)) -> cs = cs'.
Proof.
  destruct root_parts as (pl & Ll & Nl & El & Hpl & _).
  exact (node_un T sigma h 0 0 rl _ _ pl Hlg (proj1 root_LT) Ll Nl El _ _ _ _ root_a root_b (herm_tp0 h F_ c) (herm_tp1 h f c) Hpl a0 a1 cs cs').
Qed.
End Root.
