(** P_ferr.v -- rounding errors of the entrywise operations of polynomial.hpp, of integer vectors and of round_poly. *)
From Verif Require Import Base Ring Poly Spec SpecR SpecF M_xform P_xform M_codec P_codec M_float M_exact P_exact M_samp M_fft M_ntru P_ntru M_tree P_brv P_cplx P_fft P_tree P_treex P_gs P_sign P_l2 P_err.
From Coq Require Import Ring_theory Ring Lra Psatz.
Open Scope R_scope.

Lemma nrm_ev lg (p : cpv (2 ^ lg)) : nrm (2 ^ lg) (ev p) = s2 lg * nrm (2 ^ lg) (cc p).
Proof.
  apply Rsqr_inj; [apply nrm_pos|apply Rmult_le_pos; [left; apply s2_pos|apply nrm_pos]|]. unfold Rsqr.
  replace (s2 lg * nrm (2 ^ lg) (cc p) * (s2 lg * nrm (2 ^ lg) (cc p))) with (s2 lg * s2 lg * (nrm (2 ^ lg) (cc p) * nrm (2 ^ lg) (cc p))) by ring.
  rewrite s2_sq, !nrm_sq. exact (parseval lg p).
Qed.
Lemma nrm_emb n (p : zpv n) : nrm n (cc (emb p)) * nrm n (cc (emb p)) = IZR (sqnorm (pl Z n p)).
Proof. rewrite nrm_sq. exact (emb_norm n p). Qed.
Lemma nrm_emb_le n (p : zpv n) K : 0 <= K -> IZR (sqnorm (pl Z n p)) <= K * K -> nrm n (cc (emb p)) <= K.
Proof. intros HK H. apply sq_le; [exact HK|]. rewrite nrm_emb. exact H. Qed.

Section Ops.
Variable F : fops.
Variable fin : D F -> Prop.
Variable val : D F -> R.
Hypothesis A : accurate F fin val.
Notation C := (D F * D F)%type.
Notation d := (c0 F).
Notation cv := (cv F val).
Notation X := (X F val).
Notation apx := (apx F fin val).
Notation vfin := (vfin F fin).
Notation cfin := (cfin F fin).

(** an operation applied entrywise *)
Lemma zip_apx lg (op : C -> C -> C) (opx : Cx -> Cx -> Cx) (a b c : list C) (bound : Cx -> Cx -> R) :
  length a = (2 ^ lg)%nat -> length b = (2 ^ lg)%nat -> length c = (2 ^ lg)%nat ->
  (forall i, (i < 2 ^ lg)%nat -> cfin (op (nth i a d) (nth i b d)) /\ Cm (Csub (cv (op (nth i a d) (nth i b d))) (opx (X a i) (X b i))) <= bound (X a i) (X b i)) ->
  exists w, zipw (fun x y => Ok (op x y)) (2 ^ lg) a b c = Ok w /\ vfin (2 ^ lg) w /\
    forall i, (i < 2 ^ lg)%nat -> Cm (Csub (X w i) (opx (X a i) (X b i))) <= bound (X a i) (X b i).
Proof.
  intros La Lb Lc H. exists (tab (2 ^ lg) (fun i => op (nth i a d) (nth i b d))). split; [apply (zipw_ok _ op); try (symmetry; assumption); reflexivity|].
  split; [split; [apply tab_length|]|]; intros i Hi; unfold P_err.X; rewrite nth_tab by exact Hi; apply (H i Hi).
Qed.
Lemma add_to_zip lg (a b : list C) : length a = (2 ^ lg)%nat -> length b = (2 ^ lg)%nat -> cpoly_add_to F lg a b = zipw (fun x y => Ok (cadd F x y)) (2 ^ lg) a b a.
Proof.
  intros La Lb. rewrite (zipw_ok _ (cadd F) _ _ _ _ d d) by (try (symmetry; assumption); reflexivity).
  unfold cpoly_add_to. apply (fill_ok C d); [exact La|]. intros i v Hi [Lv Hv]. rewrite (rd_Ok v i d) by lia. cbn [bind]. rewrite (rd_Ok b i d) by lia. cbn [bind].
  rewrite wr_Ok by lia. do 2 f_equal. rewrite Hv by lia. rewrite Nat.ltb_irrefl. reflexivity.
Qed.

Definition big : R := 10 ^ 40.
Lemma big_huge x : x <= big -> x <= huge.
Proof. intros H. apply huge_40. unfold big in H. assert (0 < 10 ^ 40) by (apply pow_lt; lra). replace (10 ^ 41) with (10 * 10 ^ 40) by reflexivity. lra. Qed.
Lemma apx_big n l y e K i : apx n l y e -> nrm n y <= K -> K + e <= big -> (i < n)%nat -> Cm (cv (nth i l d)) <= huge.
Proof. intros H1 H2 H3 Hi. apply big_huge. change (Cm (X l i) <= big). eapply Rle_trans; [apply (apx_sup F fin val n l y e K i H1 Hi H2)|exact H3]. Qed.

Lemma add_apx lg a b y v ea eb Ka Kb (c : list C) : apx (2 ^ lg) a y ea -> apx (2 ^ lg) b v eb -> nrm (2 ^ lg) y <= Ka -> nrm (2 ^ lg) v <= Kb -> Ka + ea <= big -> Kb + eb <= big ->
  length c = (2 ^ lg)%nat -> exists w, cpoly_add F lg a b c = Ok w /\ apx (2 ^ lg) w (fun i => Cadd (y i) (v i)) (ea + eb + ulp * (Ka + ea + (Kb + eb))).
Proof.
  intros Ha Hb Ky Kv Ba Bb Lc. assert (Va := proj1 Ha). assert (Vb := proj1 Hb).
  destruct (zip_apx lg (cadd F) Cadd a b c (fun x y => ulp * Cm (Cadd x y))) as (w & E & Vw & Hw); [apply Va|apply Vb|exact Lc| |].
  { intros i Hi. apply (cadd_err F fin val A); [apply Va, Hi|apply Vb, Hi|apply (apx_big _ _ _ _ _ _ Ha Ky Ba Hi)|apply (apx_big _ _ _ _ _ _ Hb Kv Bb Hi)]. }
  exists w. split; [exact E|]. assert (U : 0 <= ulp) by (rewrite ulp_val; lra). set (n := (2 ^ lg)%nat) in *.
  assert (N1 := apx_nrm _ _ _ _ _ _ _ Ha). assert (N2 := apx_nrm _ _ _ _ _ _ _ Hb).
  assert (R1 : nrm n (fun i => Csub (X w i) (Cadd (X a i) (X b i))) <= ulp * (Ka + ea + (Kb + eb))).
  { eapply Rle_trans; [apply (nrm_bound n _ (fun i => Cadd (X a i) (X b i)) ulp 0 U (Rle_refl _)); intros i Hi; specialize (Hw i Hi); lra|].
    rewrite Rmult_0_l, Rplus_0_r. apply Rmult_le_compat_l; [exact U|]. eapply Rle_trans; [apply nrm_tri|]. lra. }
  assert (R2 : nrm n (fun i => Csub (Cadd (X a i) (X b i)) (Cadd (y i) (v i))) <= ea + eb).
  { eapply Rle_trans; [|apply Rplus_le_compat; [apply Ha|apply Hb]]. eapply Rle_trans; [|apply nrm_tri]. apply nrm_le. intros i Hi. right. f_equal. apply Cx_eq; cx; ring. }
  eapply apx_weak; [apply (apx_step _ _ _ _ _ _ _ _ _ Vw R1 R2)|lra].
Qed.
Lemma sub_apx lg a b y v ea eb Ka Kb (c : list C) : apx (2 ^ lg) a y ea -> apx (2 ^ lg) b v eb -> nrm (2 ^ lg) y <= Ka -> nrm (2 ^ lg) v <= Kb -> Ka + ea <= big -> Kb + eb <= big ->
  length c = (2 ^ lg)%nat -> exists w, cpoly_sub F lg a b c = Ok w /\ apx (2 ^ lg) w (fun i => Csub (y i) (v i)) (ea + eb + ulp * (nrm (2 ^ lg) (fun i => Csub (y i) (v i)) + (ea + eb))).
Proof.
  intros Ha Hb Ky Kv Ba Bb Lc. assert (Va := proj1 Ha). assert (Vb := proj1 Hb).
  destruct (zip_apx lg (csub F) Csub a b c (fun x y => ulp * Cm (Csub x y))) as (w & E & Vw & Hw); [apply Va|apply Vb|exact Lc| |].
  { intros i Hi. apply (csub_err F fin val A); [apply Va, Hi|apply Vb, Hi|apply (apx_big _ _ _ _ _ _ Ha Ky Ba Hi)|apply (apx_big _ _ _ _ _ _ Hb Kv Bb Hi)]. }
  exists w. split; [exact E|]. assert (U : 0 <= ulp) by (rewrite ulp_val; lra). set (n := (2 ^ lg)%nat) in *.
  assert (R2 : nrm n (fun i => Csub (Csub (X a i) (X b i)) (Csub (y i) (v i))) <= ea + eb).
  { eapply Rle_trans; [|apply Rplus_le_compat; [apply Ha|apply Hb]]. eapply Rle_trans; [|apply nrm_sub]. apply nrm_le. intros i Hi. right. f_equal. apply Cx_eq; cx; ring. }
  assert (R1 : nrm n (fun i => Csub (X w i) (Csub (X a i) (X b i))) <= ulp * (nrm n (fun i => Csub (y i) (v i)) + (ea + eb))).
  { eapply Rle_trans; [apply (nrm_bound n _ (fun i => Csub (X a i) (X b i)) ulp 0 U (Rle_refl _)); intros i Hi; specialize (Hw i Hi); lra|].
    rewrite Rmult_0_l, Rplus_0_r. apply Rmult_le_compat_l; [exact U|]. eapply Rle_trans; [apply (nrm_le_add n _ (fun i => Csub (y i) (v i)))|]. lra. }
  eapply apx_weak; [apply (apx_step _ _ _ _ _ _ _ _ _ Vw R1 R2)|lra].
Qed.
Lemma add_to_apx lg a b y v ea eb Ka Kb : apx (2 ^ lg) a y ea -> apx (2 ^ lg) b v eb -> nrm (2 ^ lg) y <= Ka -> nrm (2 ^ lg) v <= Kb -> Ka + ea <= big -> Kb + eb <= big ->
  exists w, cpoly_add_to F lg a b = Ok w /\ apx (2 ^ lg) w (fun i => Cadd (y i) (v i)) (ea + eb + ulp * (Ka + ea + (Kb + eb))).
Proof.
  intros Ha Hb Ky Kv Ba Bb. rewrite add_to_zip by (apply Ha || apply Hb). apply (add_apx lg a b y v ea eb Ka Kb a Ha Hb Ky Kv Ba Bb). apply Ha.
Qed.
(** |y| has norm at most Ka; the entries of v are at most Sb *)
Lemma mul_apx lg a b y v ea eb Ka Sb (c : list C) : (lg <= 10)%nat -> apx (2 ^ lg) a y ea -> apx (2 ^ lg) b v eb -> nrm (2 ^ lg) y <= Ka ->
  (forall i, (i < 2 ^ lg)%nat -> Cm (v i) <= Sb) -> Ka + ea <= big -> Sb + eb <= big -> 0 <= ea -> 0 <= eb -> 0 <= Sb ->
  length c = (2 ^ lg)%nat -> exists w, cpoly_mul F lg a b c = Ok w /\
    apx (2 ^ lg) w (fun i => Cmul (y i) (v i)) (ea * (Sb + eb) + Ka * eb + 3 * ulp * ((Ka + ea) * (Sb + eb)) + 32 * tiny).
Proof.
  intros Hlg Ha Hb Ky Sv Ba Bb Ea Eb Sb0 Lc. assert (Va := proj1 Ha). assert (Vb := proj1 Hb). assert (U : 0 <= ulp) by (rewrite ulp_val; lra). assert (T := tiny_pos).
  assert (Bv : forall i, (i < 2 ^ lg)%nat -> Cm (X b i) <= Sb + eb).
  { intros i Hi. pose proof (apx_point F fin val _ _ _ _ i Hb Hi). pose proof (Cm_le_add (X b i) (v i)). specialize (Sv i Hi). lra. }
  destruct (zip_apx lg (fcmul F) Cmul a b c (fun x y => 3 * ulp * (Cm x * Cm y) + tiny)) as (w & E & Vw & Hw); [apply Va|apply Vb|exact Lc| |].
  { intros i Hi. apply (cmul_err F fin val A); [apply Va, Hi|apply Vb, Hi|apply (apx_big _ _ _ _ _ _ Ha Ky Ba Hi)|apply big_huge; eapply Rle_trans; [apply Bv, Hi|exact Bb]]. }
  exists w. split; [exact E|]. assert (B1024 := pow_1024 lg Hlg). set (n := (2 ^ lg)%nat) in *. assert (N1 := apx_nrm _ _ _ _ _ _ _ Ha).
  assert (Sn := sqrt_1024 n B1024). assert (Sn0 := sqrt_pos (INR n)).
  assert (R1 : nrm n (fun i => Csub (X w i) (Cmul (X a i) (X b i))) <= 3 * ulp * ((Ka + ea) * (Sb + eb)) + 32 * tiny).
  { eapply Rle_trans; [apply (nrm_bound n _ (fun i => Cmul (X a i) (X b i)) (3 * ulp) tiny); [lra|lra|]; intros i Hi; rewrite Cm_mul; apply Hw, Hi|].
    apply Rplus_le_compat; [|rewrite Rmult_comm; apply Rmult_le_compat_r; lra]. apply Rmult_le_compat_l; [lra|].
    eapply Rle_trans; [apply (nrm_mul n _ _ (Sb + eb)); [lra|exact Bv]|]. rewrite Rmult_comm. apply Rmult_le_compat_r; lra. }
  assert (R2 : nrm n (fun i => Csub (Cmul (X a i) (X b i)) (Cmul (y i) (v i))) <= ea * (Sb + eb) + Ka * eb).
  { apply Rle_trans with (nrm n (fun i => Cmul (Csub (X a i) (y i)) (X b i)) + nrm n (fun i => Cmul (Csub (X b i) (v i)) (y i))).
    - eapply Rle_trans; [|apply nrm_tri]. apply nrm_le. intros i Hi. right. f_equal. apply Cx_eq; cx; ring.
    - apply Rplus_le_compat.
      + eapply Rle_trans; [apply (nrm_mul n _ _ (Sb + eb)); [lra|exact Bv]|]. rewrite Rmult_comm. apply Rmult_le_compat_r; [lra|apply Ha].
      + assert (Ka0 : 0 <= Ka) by (pose proof (nrm_pos n y); lra). eapply Rle_trans; [apply (nrm_mul n _ _ Ka Ka0); intros i Hi; eapply Rle_trans; [apply (nrm_comp n y i Hi)|exact Ky]|]. apply Rmult_le_compat_l; [exact Ka0|apply Hb]. }
  eapply apx_weak; [apply (apx_step _ _ _ _ _ _ _ _ _ Vw R1 R2)|lra].
Qed.

(** ** integer vectors *)
Lemma of_ints_apx lg (a : list Z) : length a = (2 ^ lg)%nat -> (forall i, (i < 2 ^ lg)%nat -> Z.abs (nth i a 0%Z) <= 2 ^ 53)%Z ->
  exists w, of_ints F lg a = Ok w /\ apx (2 ^ lg) w (cc (emb (ofl Z 0%Z (2 ^ lg) a))) 0.
Proof.
  intros La Ba. exists (tab (2 ^ lg) (fun i => cof F (fofz F (nth i a 0%Z)))). split.
  - unfold of_ints. apply (fill_ok C d); [apply repeat_length|]. intros i v Hi [Lv _]. rewrite (rd_Ok a i 0%Z) by lia. cbn [bind]. rewrite wr_Ok by lia. reflexivity.
  - assert (P : forall i, (i < 2 ^ lg)%nat -> cfin (cof F (fofz F (nth i a 0%Z))) /\ cv (cof F (fofz F (nth i a 0%Z))) = cc (emb (ofl Z 0%Z (2 ^ lg) a)) i).
    { intros i Hi. rewrite emb_c, pc_ofl by exact Hi. apply (cof_int F fin val A), Ba, Hi. }
    split; [split; [apply tab_length|intros i Hi; rewrite nth_tab by exact Hi; apply P, Hi]|].
    rewrite (nrm_ext _ _ (fun _ => Czero)); [|intros i Hi; unfold P_err.X; rewrite nth_tab by exact Hi; rewrite (proj2 (P i Hi)); apply Cx_eq; cx; ring].
    eapply Rle_trans; [apply (nrm_sup _ _ 0 (Rle_refl _)); intros; rewrite Cm_zero; lra|]. lra.
Qed.
Lemma of_ints_neg_apx lg (a : list Z) : length a = (2 ^ lg)%nat -> (forall i, (i < 2 ^ lg)%nat -> Z.abs (nth i a 0%Z) <= 2 ^ 53)%Z ->
  exists w, of_ints_neg F lg a = Ok w /\ apx (2 ^ lg) w (cc (cpopp (emb (ofl Z 0%Z (2 ^ lg) a)))) 0.
Proof.
  intros La Ba. exists (tab (2 ^ lg) (fun i => cof F (fneg F (fofz F (nth i a 0%Z))))). split.
  - unfold of_ints_neg. apply (fill_ok C d); [apply repeat_length|]. intros i v Hi [Lv _]. rewrite (rd_Ok a i 0%Z) by lia. cbn [bind]. rewrite wr_Ok by lia. reflexivity.
  - assert (P : forall i, (i < 2 ^ lg)%nat -> cfin (cof F (fneg F (fofz F (nth i a 0%Z)))) /\ cv (cof F (fneg F (fofz F (nth i a 0%Z)))) = cc (cpopp (emb (ofl Z 0%Z (2 ^ lg) a))) i).
    { intros i Hi. rewrite pc_opp, emb_c, pc_ofl by exact Hi. destruct (acc_int _ _ _ A _ (Ba i Hi)) as [H1 H2]. destruct (acc_neg _ _ _ A _ H1) as [H3 H4].
      destruct (acc_int _ _ _ A 0%Z ltac:(cbv; discriminate)) as [H5 H6]. unfold P_err.cfin, P_err.cv, cof, Copp, Cz. cbn [fst snd]. rewrite H4, H2, H6. split; [split; assumption|]. f_equal. ring. }
    split; [split; [apply tab_length|intros i Hi; rewrite nth_tab by exact Hi; apply P, Hi]|].
    rewrite (nrm_ext _ _ (fun _ => Czero)); [|intros i Hi; unfold P_err.X; rewrite nth_tab by exact Hi; rewrite (proj2 (P i Hi)); apply Cx_eq; cx; ring].
    eapply Rle_trans; [apply (nrm_sup _ _ 0 (Rle_refl _)); intros; rewrite Cm_zero; lra|]. lra.
Qed.

(** rounding to integers *)
Lemma Rround_near z x : Rabs (x - IZR z) < 1 / 2 -> Rround x = z.
Proof.
  intros H. apply Rabs_def2 in H. unfold Rround. destruct (Rle_dec 0 x) as [P|P].
  - apply Rfloor_eq. lra.
  - rewrite (Rfloor_eq _ (- z)); [ring|]. rewrite opp_IZR. lra.
Qed.
Lemma Rtrunc_IZR z : Rtrunc (IZR z) = z.
Proof.
  unfold Rtrunc. destruct (Rle_dec 0 (IZR z)) as [P|P]; [apply Rfloor_eq; lra|]. rewrite <- opp_IZR. rewrite (Rfloor_eq _ (- z)); [ring|]. lra.
Qed.
Lemma round_apx lg (p : zpv (2 ^ lg)) l e (out : list Z) : apx (2 ^ lg) l (cc (emb p)) e -> e < 1 / 2 -> length out = (2 ^ lg)%nat ->
  Forall (fun x => -2147483647 <= x <= 2147483647)%Z (pl Z _ p) -> round_poly F lg l out = Ok (pl Z _ p).
Proof.
  intros Ha He Lo Hp. assert (Va := proj1 Ha). unfold round_poly.
  transitivity (Ok (tab (2 ^ lg) (fun i => pc Z 0%Z p i))).
  - apply (fill_ok Z 0%Z); [exact Lo|]. intros i v Hi [Lv _]. rewrite (rd_Ok l i d) by (rewrite (proj1 Va); exact Hi). cbn [bind].
    assert (N := apx_point F fin val _ _ _ _ i Ha Hi). rewrite emb_c in N by exact Hi.
    assert (N1 : Rabs (val (fst (nth i l d)) - IZR (pc Z 0%Z p i)) <= e) by (eapply Rle_trans; [apply (Cm_fst (Csub (X l i) (Cz (pc Z 0%Z p i))))|exact N]).
    assert (Hx : (-2147483647 <= pc Z 0%Z p i <= 2147483647)%Z). { rewrite Forall_forall in Hp. apply Hp. unfold pc. apply nth_In. rewrite pl_length. exact Hi. }
    assert (B : Rabs (IZR (pc Z 0%Z p i)) <= 2147483647) by (rewrite <- abs_IZR; apply IZR_le; lia).
    destruct (acc_round _ _ _ A (fst (nth i l d))) as [H1 H2]; [apply Va, Hi| |].
    { replace (val (fst (nth i l d))) with (val (fst (nth i l d)) - IZR (pc Z 0%Z p i) + IZR (pc Z 0%Z p i)) by ring. eapply Rle_trans; [apply Rabs_triang|]. lra. }
    rewrite (Rround_near (pc Z 0%Z p i)) in H2 by lra. unfold to_i32, to_range. rewrite (acc_trunc _ _ _ A _ H1), H2, Rtrunc_IZR.
    replace ((-2147483648 <=? pc Z 0%Z p i) && (pc Z 0%Z p i <? 2147483648))%Z%bool with true by (symmetry; lia). cbn [bind]. rewrite wr_Ok by lia. reflexivity.
  - apply f_equal. apply (list_ext 0%Z); [rewrite tab_length, pl_length; reflexivity|]. rewrite tab_length. intros i Hi. rewrite nth_tab by exact Hi. reflexivity.
Qed.
End Ops.
