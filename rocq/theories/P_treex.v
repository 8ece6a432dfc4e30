(** P_treex.v -- the Falcon tree in exact arithmetic: leaves lie between harmonic and arithmetic means. *)
From Verif Require Import Base Ring Poly Spec SpecR M_xform P_xform M_codec P_codec M_float M_exact M_samp M_fft M_ntru P_ntru M_tree P_tree P_brv P_cplx P_fft.
From Coq Require Import Ring_theory Ring Lra.
Open Scope R_scope.

Ltac ceq := apply Cx_eq; cbv [fst snd Cof Cconj cconj cscal cadd csub c0 half flit fcmul fcdiv fadd fsub fmul fdiv fneg fofz D RF]; change (10 ^ 1)%Z with 10%Z;
  match goal with |- @eq _ ?a ?b => change (@eq R a b) end.
(** real vectors *)
Definition rv (n : nat) (d : nat -> R) : list Cx := tab n (fun i => Cof (d i)).
Lemma rv_length n d : length (rv n d) = n. Proof. apply tab_length. Qed.
Lemma rv_nth n d i : (i < n)%nat -> nth i (rv n d) (c0 RF) = Cof (d i).
Proof. intros H. unfold rv. apply (nth_tab n (fun i => Cof (d i))). exact H. Qed.
Lemma rv_conj n d : map (cconj RF) (rv n d) = rv n d.
Proof.
  unfold rv, tab. rewrite map_map. apply map_ext. intros i. unfold cconj, Cof. cbn [fst snd]. apply Cx_eq; cbn; [reflexivity|ring].
Qed.

Lemma d11_rv n a c (w : list Cx) : (forall i, (i < n)%nat -> a i <> 0) ->
  vd11 RF n (rv n a) w (rv n c) = rv n (fun i => c i - sq (nth i w Czero) / a i).
Proof.
  intros H. unfold vd11, vop. apply tab_ext. intros i Hi.
  assert (El : nth i (vl10 RF n (rv n a) w) (c0 RF) = (fst (nth i w Czero) / a i, snd (nth i w Czero) / a i)).
  { unfold vl10, vop. rewrite (nth_tab n) by exact Hi. rewrite rv_nth by exact Hi. change (@nth (D RF * D RF) i w (c0 RF)) with (@nth Cx i w Czero).
    specialize (H i Hi). generalize (nth i w Czero). intros [u v]. ceq; field; exact H. }
  rewrite (nth_tab n) by exact Hi. rewrite (nth_tab n) by exact Hi.
  assert (Ec : nth i (map (cconj RF) (vl10 RF n (rv n a) w)) (c0 RF) = Cconj (fst (nth i w Czero) / a i, snd (nth i w Czero) / a i)).
  { rewrite <- El. change (c0 RF) with (cconj RF (c0 RF)) at 1 || idtac.
    rewrite (nth_indep _ (c0 RF) (cconj RF (c0 RF))) by (rewrite map_length; unfold vl10; rewrite vop_length; exact Hi).
    rewrite map_nth. reflexivity. }
  rewrite El, Ec, !rv_nth by exact Hi. specialize (H i Hi). unfold sq. generalize (nth i w Czero). intros [u v]. ceq; field; exact H.
Qed.

Lemma spl0_rv h d : vspl0 RF h (rv (2 ^ S h) d) = rv (2 ^ h) (fun i => (d (2 * i)%nat + d (2 * i + 1)%nat) / 2).
Proof.
  unfold vspl0. apply tab_ext. intros i Hi. assert (2 * i + 1 < 2 ^ S h)%nat by (simpl; lia).
  rewrite !rv_nth by lia. ceq; field.
Qed.
Lemma spl1_rv h d i : (S h <= 10)%nat -> (i < 2 ^ h)%nat ->
  sq (nth i (map (cconj RF) (vspl1 RF exact_table h (rv (2 ^ S h) d))) Czero) = ((d (2 * i)%nat - d (2 * i + 1)%nat) / 2) * ((d (2 * i)%nat - d (2 * i + 1)%nat) / 2).
Proof.
  intros Hh Hi. assert (2 * i + 1 < 2 ^ S h)%nat by (simpl; lia).
  rewrite (nth_indep _ Czero (cconj RF (c0 RF))) by (rewrite map_length; unfold vspl1; rewrite tab_length; exact Hi).
  rewrite map_nth. unfold vspl1. rewrite (nth_tab (2 ^ h)) by exact Hi. rewrite !rv_nth by lia.
  change (nth (2 ^ h + i) exact_table (c0 RF)) with (nth (2 ^ h + i) exact_table Czero). rewrite table_pt by assumption.
  assert (P := sq_pt (S h) (2 * i)). revert P. generalize (pt (S h) (2 * i)). intros [x y]. unfold sq, half, flit; cbn. intros P.
  transitivity ((((d (i + (i + 0))%nat - d (i + (i + 0) + 1)%nat) / 2) * ((d (i + (i + 0))%nat - d (i + (i + 0) + 1)%nat) / 2)) * (x * x + y * y)); [field|rewrite P; field].
Qed.

Notation tr := (tree RF).
Notation leaves := (leaves RF).

(** the subtree built below a diagonal entry v *)
Definition sub (h : nat) (v : list Cx) : tr :=
  match h with
  | O => Leaf RF (nth 0 v (c0 RF))
  | S _ => ltree RF exact_table h (vspl0 RF h v) (map (cconj RF) (vspl1 RF exact_table h v)) (map (cconj RF) (vspl0 RF h v))
  end.
Lemma ltree_sub h g00 g10 g11 : ltree RF exact_table (S h) g00 g10 g11 =
  Node RF (vl10 RF (2 ^ S h) g00 g10) (sub h g00) (sub h (vd11 RF (2 ^ S h) g00 g10 g11)).
Proof. destruct h; reflexivity. Qed.

(** means *)
Definition AM (n : nat) (d : nat -> R) : R := Rsum n d / INR n.
Definition IM (n : nat) (d : nat -> R) : R := Rsum n (fun i => / d i) / INR n.

Lemma Rsum_le n f g : (forall i, (i < n)%nat -> f i <= g i) -> Rsum n f <= Rsum n g.
Proof. induction n as [|n IH]; intros H; cbn [rsum]; [lra|]. apply Rplus_le_compat; [apply IH; intros; apply H; lia|apply H; lia]. Qed.
Lemma Rsum_pos n f : (0 < n)%nat -> (forall i, (i < n)%nat -> 0 < f i) -> 0 < Rsum n f.
Proof.
  induction n as [|n IH]; intros Hn H; [lia|]. cbn [rsum]. assert (0 < f n) by (apply H; lia).
  destruct n as [|n]; [simpl; lra|]. assert (0 < Rsum (S n) f) by (apply IH; [lia|intros; apply H; lia]). lra.
Qed.
Lemma Rsum_pairs n f : Rsum (2 * n) f = Rsum n (fun i => f (2 * i)%nat + f (2 * i + 1)%nat).
Proof. rewrite (rsum_parity _ _ _ _ _ _ _ RTheory), <- (rsum_add _ _ _ _ _ _ _ RTheory). reflexivity. Qed.

Section Means.
Variables (n : nat) (d : nat -> R).
Hypothesis Hn : (0 < n)%nat.
Hypothesis Hd : forall i, (i < 2 * n)%nat -> 0 < d i.
Definition am2 (i : nat) : R := (d (2 * i)%nat + d (2 * i + 1)%nat) / 2.
Definition hm2 (i : nat) : R := am2 i - ((d (2 * i)%nat - d (2 * i + 1)%nat) / 2) * ((d (2 * i)%nat - d (2 * i + 1)%nat) / 2) / am2 i.
Lemma am2_pos i : (i < n)%nat -> 0 < am2 i.
Proof. intros Hi. unfold am2. assert (0 < d (2 * i)%nat) by (apply Hd; lia). assert (0 < d (2 * i + 1)%nat) by (apply Hd; lia). lra. Qed.
Lemma hm2_val i : (i < n)%nat -> hm2 i = d (2 * i)%nat * d (2 * i + 1)%nat / am2 i.
Proof. intros Hi. assert (P := am2_pos i Hi). unfold hm2. apply (Rmult_eq_reg_r (am2 i)); [|lra]. field_simplify; try lra. unfold am2. field. Qed.
Lemma hm2_pos i : (i < n)%nat -> 0 < hm2 i.
Proof.
  intros Hi. rewrite hm2_val by exact Hi. assert (0 < d (2 * i)%nat) by (apply Hd; lia). assert (0 < d (2 * i + 1)%nat) by (apply Hd; lia).
  apply Rdiv_lt_0_compat; [apply Rmult_lt_0_compat; assumption|apply am2_pos; exact Hi].
Qed.
Lemma hm2_inv i : (i < n)%nat -> / hm2 i = (/ d (2 * i)%nat + / d (2 * i + 1)%nat) / 2.
Proof.
  intros Hi. rewrite hm2_val by exact Hi. assert (P := am2_pos i Hi). assert (0 < d (2 * i)%nat) by (apply Hd; lia). assert (0 < d (2 * i + 1)%nat) by (apply Hd; lia).
  unfold am2 in *. field. repeat split; lra.
Qed.
Lemma hm2_le i : (i < n)%nat -> hm2 i <= am2 i.
Proof.
  intros Hi. assert (P := am2_pos i Hi). unfold hm2.
  assert (0 <= ((d (2 * i)%nat - d (2 * i + 1)%nat) / 2) * ((d (2 * i)%nat - d (2 * i + 1)%nat) / 2) / am2 i).
  { apply Rmult_le_pos; [apply Rle_0_sqr|left; apply Rinv_0_lt_compat; exact P]. } lra.
Qed.
Lemma INR_2n : INR (2 * n) = 2 * INR n. Proof. rewrite mult_INR. reflexivity. Qed.
Lemma INRn : 0 < INR n. Proof. apply lt_0_INR. exact Hn. Qed.
Lemma AM_am : AM n am2 = AM (2 * n) d.
Proof.
  unfold AM. rewrite Rsum_pairs, INR_2n. rewrite (rsum_ext _ _ _ _ am2 (fun i => / 2 * (d (2 * i)%nat + d (2 * i + 1)%nat))) by (intros; unfold am2; field).
  rewrite Rsum_scal. field. assert (H := INRn). lra.
Qed.
Lemma IM_hm : IM n hm2 = IM (2 * n) d.
Proof.
  unfold IM. rewrite Rsum_pairs, INR_2n. rewrite (rsum_ext _ _ _ _ _ (fun i => / 2 * (/ d (2 * i)%nat + / d (2 * i + 1)%nat))) by (intros; rewrite hm2_inv by assumption; unfold Rdiv; ring).
  rewrite Rsum_scal. field. assert (H := INRn). lra.
Qed.
Lemma AM_hm : AM n hm2 <= AM (2 * n) d.
Proof.
  rewrite <- AM_am. unfold AM. apply Rmult_le_compat_r; [left; apply Rinv_0_lt_compat, INRn|]. apply Rsum_le. exact hm2_le.
Qed.
Lemma IM_am : IM n am2 <= IM (2 * n) d.
Proof.
  rewrite <- IM_hm. unfold IM. apply Rmult_le_compat_r; [left; apply Rinv_0_lt_compat, INRn|]. apply Rsum_le. intros i Hi.
  apply Rinv_le_contravar; [apply hm2_pos; exact Hi|apply hm2_le; exact Hi].
Qed.
End Means.

Definition good (x : Cx) (lo hi : R) : Prop := snd x = 0 /\ 0 < fst x /\ / fst x <= lo /\ fst x <= hi.

Lemma sub_leaves : forall h d, (S h <= 10)%nat -> (forall i, (i < 2 ^ S h)%nat -> 0 < d i) ->
  (forall i, (i < 2 ^ S h)%nat -> d (2 ^ S h - 1 - i)%nat = d i) ->
  Forall (fun x => good x (IM (2 ^ S h) d) (AM (2 ^ S h) d)) (leaves (sub h (rv (2 ^ S h) d))).
Proof.
  induction h as [|h IH]; intros d Hh Hd Hs.
  - cbn [sub leaves]. constructor; [|constructor]. rewrite rv_nth by (simpl; lia).
    assert (E := Hs 0%nat ltac:(simpl; lia)). cbn in E. assert (P := Hd 0%nat ltac:(simpl; lia)).
    unfold good, Cof, AM, IM. cbn. rewrite E. repeat split; lra.
  - assert (P2 := pow2_pos (S h)).
    assert (E2 : (2 ^ S (S h) = 2 * 2 ^ S h)%nat) by reflexivity.
    change (sub (S h) (rv (2 ^ S (S h)) d)) with
      (ltree RF exact_table (S h) (vspl0 RF (S h) (rv (2 ^ S (S h)) d)) (map (cconj RF) (vspl1 RF exact_table (S h) (rv (2 ^ S (S h)) d))) (map (cconj RF) (vspl0 RF (S h) (rv (2 ^ S (S h)) d)))).
    rewrite spl0_rv, rv_conj, ltree_sub. cbn [leaves].
    assert (Hd' : forall i, (i < 2 * 2 ^ S h)%nat -> 0 < d i) by (intros; apply Hd; lia).
    change (fun i => (d (2 * i)%nat + d (2 * i + 1)%nat) / 2) with (am2 d).
    match goal with |- context [vd11 RF ?n ?a ?b ?c] => assert (Eh : vd11 RF n a b c = rv (2 ^ S h) (hm2 d)) end.
    { etransitivity; [apply d11_rv; intros i Hi; apply Rgt_not_eq; apply (am2_pos (2 ^ S h)); assumption|].
      apply tab_ext. intros i Hi. apply (f_equal Cof). unfold hm2. f_equal. f_equal. apply spl1_rv; assumption. }
    rewrite Eh. apply Forall_app.
    assert (Hs' : forall i, (i < 2 ^ S h)%nat -> d (2 * (2 ^ S h - 1 - i))%nat = d (2 * i + 1)%nat /\ d (2 * (2 ^ S h - 1 - i) + 1)%nat = d (2 * i)%nat).
    { intros i Hi. split; [rewrite <- (Hs (2 * i + 1)%nat) by lia|rewrite <- (Hs (2 * i)%nat) by lia]; f_equal; lia. }
    split.
    + eapply Forall_impl; [|apply IH; [lia|intros i Hi; apply (am2_pos (2 ^ S h)); assumption|]].
      * intros x [X0 [X1 [X2 X3]]]. rewrite (AM_am _ d P2) in X3. assert (X4 := IM_am _ d P2 Hd'). rewrite <- E2 in X3, X4. repeat split; lra.
      * intros i Hi. unfold am2. destruct (Hs' i Hi) as [-> ->]. lra.
    + eapply Forall_impl; [|apply IH; [lia|intros i Hi; apply (hm2_pos (2 ^ S h)); assumption|]].
      * intros x [X0 [X1 [X2 X3]]]. rewrite (IM_hm _ d P2 Hd') in X2. assert (X4 := AM_hm _ d P2 Hd'). rewrite <- E2 in X2, X4. repeat split; lra.
      * intros i Hi. unfold hm2, am2. destruct (Hs' i Hi) as [-> ->].
        replace (d (2 * i + 1)%nat + d (2 * i)%nat) with (d (2 * i)%nat + d (2 * i + 1)%nat) by ring. unfold Rdiv. ring.
Qed.

(** ** the NTRU basis *)
Lemma pt_compl lg i : (i < 2 ^ lg)%nat -> pt lg (2 ^ lg - 1 - i) = Cconj (pt lg i).
Proof.
  intros Hi. unfold pt, fft_point. assert (B := brv_lt lg i). assert (BC := brv_compl lg i Hi). replace (brv lg (2 ^ lg - 1 - i)) with (2 ^ lg - 1 - brv lg i)%nat by lia. assert (P := INR_pow2_pos lg).
  replace (PI * INR (2 * (2 ^ lg - 1 - brv lg i) + 1) / INR (2 ^ lg)) with (- (PI * INR (2 * brv lg i + 1) / INR (2 ^ lg)) + 2 * PI).
  - unfold cis, Cconj. cbn [fst snd]. rewrite cos_plus, sin_plus, cos_2PI, sin_2PI, cos_neg, sin_neg. f_equal; ring.
  - replace (2 * (2 ^ lg - 1 - brv lg i) + 1)%nat with (2 * 2 ^ lg - (2 * brv lg i + 1))%nat by lia.
    rewrite minus_INR by lia. rewrite mult_INR. simpl (INR 2). field. lra.
Qed.
Lemma ev_compl lg (p : zpv (2 ^ lg)) i : (i < 2 ^ lg)%nat -> ev (emb p) (2 ^ lg - 1 - i) = Cconj (ev (emb p) i).
Proof.
  intros Hi. unfold ev, reval. rewrite pt_compl by exact Hi. rewrite Csum_conj. apply rsum_ext. intros j Hj.
  rewrite Cconj_mul, Cconj_pow, emb_c by exact Hj. f_equal. apply Cx_eq; unfold Cz; cx; ring.
Qed.
Lemma poly_at_ev lg f i : length f = (2 ^ lg)%nat -> poly_at lg f i = ev (emb (ofl Z 0%Z (2 ^ lg) f)) i.
Proof.
  intros Lf. unfold poly_at, ev. rewrite horner_shift, map_length, Lf. apply reval_ext. intros j Hj. rewrite emb_c, pc_ofl by exact Hj.
  change Czero with (Cz 0). apply map_nth.
Qed.
Lemma Rsigma_sum n f : Rsigma n f = Rsum n f.
Proof. induction n as [|n IH]; simpl; [reflexivity|rewrite IH; reflexivity]. Qed.

Section Basis.
Variable lg : nat.
Hypothesis Hlg : (lg <= 10)%nat.
Variables f g F_ G_ : list Z.
Notation N := (2 ^ lg)%nat.
Hypotheses (Lf : length f = N) (Lg : length g = N) (LF : length F_ = N) (LG : length G_ = N).
Notation pf := (emb (ofl Z 0%Z N f)).
Notation pg := (emb (ofl Z 0%Z N g)).
Notation pF := (emb (ofl Z 0%Z N F_)).
Notation pG := (emb (ofl Z 0%Z N G_)).

Lemma fft_cpl (p : cpv N) : fft RF exact_table lg (cpl p) = Ok (ft p).
Proof. rewrite fft_ok by (exact Hlg || apply pl_length). rewrite ofl_pl. reflexivity. Qed.

Definition Bex : list Cx := ft pg ++ ft (cpopp pf) ++ ft pG ++ ft (cpopp pF).
Lemma matrix_B_ok : compute_matrix_B RF exact_table lg f g F_ G_ = Ok Bex.
Proof.
  unfold compute_matrix_B. rewrite (of_ints_ok lg g Lg), (of_ints_neg_ok lg f Lf), (of_ints_ok lg G_ LG), (of_ints_neg_ok lg F_ LF). cbn [bind].
  assert (E1 : fresh RF (4 * N) = repeat (c0 RF) N ++ repeat (c0 RF) N ++ repeat (c0 RF) N ++ repeat (c0 RF) N).
  { unfold fresh. rewrite <- !repeat_app. f_equal. lia. }
  rewrite E1. set (r := repeat (c0 RF) N). assert (Lr : length r = N) by apply repeat_length.
  assert (LC : forall p : cpv N, @length (D RF * D RF) (cpl p) = N) by (intros; apply pl_length).
  assert (LT : forall p : cpv N, @length (D RF * D RF) (ft p) = N) by (intros; apply ft_length).
  rewrite (wrs4_0 RF N) by (assumption || apply LC). cbn [bind]. rewrite (wrs4_1 RF N) by (assumption || apply LC). cbn [bind].
  rewrite (wrs4_2 RF N) by (assumption || apply LC). cbn [bind]. rewrite (wrs4_3 RF N) by (assumption || apply LC). cbn [bind]. unfold at_sub.
  rewrite (rds4_0 RF N) by apply LC. cbn [bind]. rewrite fft_cpl. cbn [bind]. rewrite (wrs4_0 RF N) by (apply LC || apply LT). cbn [bind].
  rewrite (rds4_1 RF N) by (apply LC || apply LT). cbn [bind]. rewrite fft_cpl. cbn [bind]. rewrite (wrs4_1 RF N) by (apply LC || apply LT). cbn [bind].
  rewrite (rds4_2 RF N) by (apply LC || apply LT). cbn [bind]. rewrite fft_cpl. cbn [bind]. rewrite (wrs4_2 RF N) by (apply LC || apply LT). cbn [bind].
  rewrite (rds4_3 RF N) by (apply LC || apply LT). cbn [bind]. rewrite fft_cpl. cbn [bind]. rewrite (wrs4_3 RF N) by (apply LC || apply LT). reflexivity.
Qed.

Hypothesis HN : ntru N f g F_ G_.
Lemma ntru_ev i : Csub (Cmul (ev pf i) (ev pG i)) (Cmul (ev pg i) (ev pF i)) = Cz q.
Proof.
  assert (H := proj1 (ntru_iff N f g F_ G_) HN). apply (f_equal emb) in H. rewrite emb_sub, !emb_mul, emb_cst in H.
  apply (f_equal (fun p => ev p i)) in H. rewrite ev_sub, !ev_mul, ev_cst in H. exact H.
Qed.
Definition dd (i : nat) : R := sq (ev pf i) + sq (ev pg i).
Definition dd2 (i : nat) : R := sq (ev pF i) + sq (ev pG i).
Lemma dd_pos i : 0 < dd i.
Proof.
  assert (H := ntru_ev i). unfold dd. assert (A := sq_nonneg (ev pf i)). assert (B := sq_nonneg (ev pg i)).
  destruct (Req_dec (sq (ev pf i)) 0) as [Ef|Ef]; [|lra]. destruct (Req_dec (sq (ev pg i)) 0) as [Eg|Eg]; [|lra].
  apply sq_0 in Ef, Eg. rewrite Ef, Eg in H. exfalso. assert (H2 := f_equal fst H). unfold Cz, q in H2. revert H2. cx. lra.
Qed.
Lemma dd_sym i : (i < N)%nat -> dd (N - 1 - i) = dd i.
Proof. intros Hi. unfold dd. rewrite !ev_compl by exact Hi. unfold sq. cx. ring. Qed.
Lemma dd_row i : row_norm lg f g i = dd i.
Proof. unfold row_norm, dd. rewrite !poly_at_ev by assumption. reflexivity. Qed.

Lemma ev_opp (p : cpv N) i : ev (cpopp p) i = Copp (ev p i).
Proof.
  assert (H := ev_add lg (cpopp p) p i). assert (E : cpadd (cpopp p) p = pcst Cx Czero Czero).
  { apply (pv_ext Cx Czero). intros k Hk. rewrite pc_add, pc_opp by exact Hk. unfold pcst. rewrite pc_mkp by exact Hk.
    destruct (k =? 0)%nat; apply Cx_eq; cx; ring. }
  rewrite E, ev_cst in H. apply Cx_eq; [apply (f_equal fst) in H|apply (f_equal snd) in H]; revert H; cx; lra.
Qed.

Lemma nth_ftz (p : cpv N) i : (i < N)%nat -> nth i (ft p) (c0 RF) = ev p i.
Proof. intros H. apply (nth_ft lg p i H). Qed.
Lemma nth_conj (v : list Cx) i : (i < length v)%nat -> nth i (map (cconj RF) v) (c0 RF) = Cconj (nth i v (c0 RF)).
Proof.
  intros H. rewrite (nth_indep _ (c0 RF) (cconj RF (c0 RF))) by (rewrite map_length; exact H). rewrite map_nth. reflexivity.
Qed.
Lemma nth_gram (a b c d : cpv N) i : (i < N)%nat ->
  nth i (vgram RF N (ft a) (ft b) (ft c) (ft d)) (c0 RF) = Cadd (Cmul (ev a i) (Cconj (ev c i))) (Cmul (ev b i) (Cconj (ev d i))).
Proof.
  intros Hi. unfold vgram, vop. rewrite (nth_tab N) by exact Hi. rewrite !(nth_tab N) by exact Hi.
  rewrite !nth_conj by (rewrite ft_length; exact Hi). rewrite !nth_ftz by exact Hi. reflexivity.
Qed.
Lemma gram00 : vgram RF N (ft pg) (ft (cpopp pf)) (ft pg) (ft (cpopp pf)) = rv N dd.
Proof.
  apply (@list_ext Cx Czero); [rewrite rv_length; apply (vgram_length RF N)|]. rewrite (vgram_length RF N). intros i Hi.
  etransitivity; [apply nth_gram; exact Hi|]. etransitivity; [|symmetry; apply rv_nth; exact Hi].
  rewrite ev_opp. unfold dd, sq. apply Cx_eq; unfold Cof; cx; ring.
Qed.
Lemma gram11 : vgram RF N (ft pG) (ft (cpopp pF)) (ft pG) (ft (cpopp pF)) = rv N dd2.
Proof.
  apply (@list_ext Cx Czero); [rewrite rv_length; apply (vgram_length RF N)|]. rewrite (vgram_length RF N). intros i Hi.
  etransitivity; [apply nth_gram; exact Hi|]. etransitivity; [|symmetry; apply rv_nth; exact Hi].
  rewrite ev_opp. unfold dd2, sq. apply Cx_eq; unfold Cof; cx; ring.
Qed.
Lemma gram10_sq i : (i < N)%nat -> sq (nth i (vgram RF N (ft pG) (ft (cpopp pF)) (ft pg) (ft (cpopp pf))) Czero) = dd i * dd2 i - IZR (q * q).
Proof.
  intros Hi. replace (nth i (vgram RF N (ft pG) (ft (cpopp pF)) (ft pg) (ft (cpopp pf))) Czero)
    with (Cadd (Cmul (ev pG i) (Cconj (ev pg i))) (Cmul (ev (cpopp pF) i) (Cconj (ev (cpopp pf) i)))) by (symmetry; apply nth_gram; exact Hi).
  rewrite !ev_opp. assert (H := ntru_ev i). assert (H2 : sq (Csub (Cmul (ev pf i) (ev pG i)) (Cmul (ev pg i) (ev pF i))) = IZR (q * q)).
  { rewrite H. unfold sq, Cz. cbn [fst snd]. rewrite mult_IZR. ring. }
  rewrite <- H2. unfold dd, dd2, sq. cx. ring.
Qed.
Definition ddo (i : nat) : R := IZR (q * q) / dd i.
Lemma root_d11 : vd11 RF N (rv N dd) (vgram RF N (ft pG) (ft (cpopp pF)) (ft pg) (ft (cpopp pf))) (rv N dd2) = rv N ddo.
Proof.
  etransitivity; [apply d11_rv; intros i Hi; apply Rgt_not_eq; apply dd_pos|]. apply tab_ext. intros i Hi. apply (f_equal Cof).
  rewrite gram10_sq by exact Hi. unfold ddo. assert (P := dd_pos i). field. lra.
Qed.
Lemma qq_pos : 0 < IZR (q * q). Proof. apply IZR_lt. reflexivity. Qed.
Lemma AM_dd : AM N dd = IZR (sqnorm f + sqnorm g).
Proof.
  unfold AM, dd. rewrite (rsum_add _ _ _ _ _ _ _ RTheory), !parseval.
  assert (E : forall a : list Z, length a = N -> Rsum N (fun j => sq (cc (emb (ofl Z 0%Z N a)) j)) = IZR (sqnorm a)).
  { intros a La. transitivity (Rsum (length a) (fun j => IZR (nth j a 0%Z * nth j a 0%Z))).
    - rewrite La. apply rsum_ext. intros j Hj. rewrite emb_c, pc_ofl by exact Hj. unfold sq, Cz. cbn [fst snd]. rewrite mult_IZR. ring.
    - clear La. induction a as [|x a IH]; [reflexivity|]. cbn [length]. rewrite (rsum_S_l _ _ _ _ _ _ _ RTheory). cbn [nth]. rewrite IH. 
      change (sqnorm (x :: a)) with (x * x + sqnorm a)%Z. rewrite plus_IZR. reflexivity. }
  rewrite !E, plus_IZR by assumption. assert (P := INR_pow2_pos lg). field. lra.
Qed.
Lemma AM_ddo : AM N ddo = gs_second lg f g.
Proof. unfold AM, gs_second. apply (f_equal (fun x => x / INR N)). symmetry. etransitivity; [apply Rsigma_sum|]. apply rsum_ext. intros i Hi. rewrite dd_row. reflexivity. Qed.
Lemma IM_dd : IM N dd = gs_second lg f g / IZR (q * q).
Proof.
  rewrite <- AM_ddo. unfold AM, IM, ddo. rewrite (rsum_ext _ _ _ _ (fun i => IZR (q * q) / dd i) (fun i => IZR (q * q) * / dd i)) by reflexivity.
  rewrite Rsum_scal. assert (P := INR_pow2_pos lg). assert (Q := qq_pos). field. split; lra.
Qed.
Lemma IM_ddo : IM N ddo = IZR (sqnorm f + sqnorm g) / IZR (q * q).
Proof.
  rewrite <- AM_dd. unfold AM, IM, ddo. assert (Q := qq_pos).
  rewrite (rsum_ext _ _ _ _ (fun i => / (IZR (q * q) / dd i)) (fun i => / IZR (q * q) * dd i)).
  - rewrite Rsum_scal. assert (P := INR_pow2_pos lg). field. split; lra.
  - intros i Hi. assert (P := dd_pos i). field. split; lra.
Qed.
Lemma gs_second_pos : 0 < gs_second lg f g.
Proof.
  rewrite <- AM_ddo. unfold AM. apply Rdiv_lt_0_compat; [|apply INR_pow2_pos]. apply Rsum_pos; [apply pow2_pos|].
  intros i Hi. unfold ddo. apply Rdiv_lt_0_compat; [apply qq_pos|apply dd_pos].
Qed.
Definition root_tree : tr := ltree RF exact_table lg (rv N dd) (vgram RF N (ft pG) (ft (cpopp pF)) (ft pg) (ft (cpopp pf))) (rv N dd2).
Lemma root_leaves : (1 <= lg)%nat ->
  Forall (fun x => good x (gs_norm lg f g / IZR (q * q)) (gs_norm lg f g)) (leaves root_tree).
Proof.
  intros H1. unfold root_tree. assert (Q := qq_pos).
  assert (exists h, lg = S h) as [h Eh] by (exists (lg - 1)%nat; lia).
  assert (E : ltree RF exact_table lg (rv N dd) (vgram RF N (ft pG) (ft (cpopp pF)) (ft pg) (ft (cpopp pf))) (rv N dd2) =
    Node RF (vl10 RF N (rv N dd) (vgram RF N (ft pG) (ft (cpopp pF)) (ft pg) (ft (cpopp pf)))) (sub h (rv N dd)) (sub h (rv N ddo))).
  { rewrite <- root_d11. generalize (rv N dd) (vgram RF N (ft pG) (ft (cpopp pF)) (ft pg) (ft (cpopp pf))) (rv N dd2). intros u v w. rewrite Eh. apply ltree_sub. }
  rewrite E. cbn [P_tree.leaves]. apply Forall_app.
  assert (M1 : IZR (sqnorm f + sqnorm g) <= gs_norm lg f g) by apply Rmax_l.
  assert (M2 : gs_second lg f g <= gs_norm lg f g) by apply Rmax_r.
  assert (D1 : IZR (sqnorm f + sqnorm g) / IZR (q * q) <= gs_norm lg f g / IZR (q * q)) by (apply Rmult_le_compat_r; [left; apply Rinv_0_lt_compat; exact Q|exact M1]).
  assert (D2 : gs_second lg f g / IZR (q * q) <= gs_norm lg f g / IZR (q * q)) by (apply Rmult_le_compat_r; [left; apply Rinv_0_lt_compat; exact Q|exact M2]).
  split.
  - assert (S1 := sub_leaves h dd). rewrite <- Eh in S1. rewrite AM_dd, IM_dd in S1.
    eapply Forall_impl; [|apply S1; [exact Hlg|intros; apply dd_pos|apply dd_sym]]. intros x [X0 [X1 [X2 X3]]]. repeat split; lra.
  - assert (S1 := sub_leaves h ddo). rewrite <- Eh in S1. rewrite AM_ddo, IM_ddo in S1.
    eapply Forall_impl; [|apply S1; [exact Hlg| |]]. 
    + intros x [X0 [X1 [X2 X3]]]. repeat split; lra.
    + intros i Hi. unfold ddo. apply Rdiv_lt_0_compat; [exact Q|apply dd_pos].
    + intros i Hi. unfold ddo. rewrite dd_sym by exact Hi. reflexivity.
Qed.
End Basis.
