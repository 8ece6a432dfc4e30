(** P_gs.v -- the Gram-Schmidt norm test of key generation and the tree of an NTRU key, in exact arithmetic. *)
From Verif Require Import Base Ring Poly Spec SpecR M_xform P_xform M_codec P_codec M_float M_exact M_samp M_fft M_ntru P_ntru M_tree P_tree P_brv P_cplx P_fft P_treex.
From Coq Require Import Ring_theory Ring Lra.
Open Scope R_scope.
Ltac req := match goal with |- ?a = ?b => change (@eq R a b) end.

Lemma norm_d_ok lg (y : list R) : length y = (2 ^ lg)%nat -> sqrd_norm_d RF lg y = Ok (Rsum (2 ^ lg) (fun i => nth i y 0 * nth i y 0)).
Proof.
  intros Ly. unfold sqrd_norm_d.
  destruct (forn_inv (fun i (r : R) => r = Rsum i (fun j => nth j y 0 * nth j y 0)) (2 ^ lg) 0
    (fun i r => x <- rd y i ;; Ok (fadd RF r (fmul RF x x))) (fofz RF 0)) as [r [E H]].
  - reflexivity.
  - intros i r Hi ->. rewrite (rd_Ok y i 0) by lia. eexists; split; [reflexivity|]. reflexivity.
  - cbn [Nat.add] in H. etransitivity; [exact E|]. rewrite H. reflexivity.
Qed.
Lemma to_d_ok lg (a : list Z) : length a = (2 ^ lg)%nat ->
  forn (2 ^ lg) 0 (fun i v => x <- rd a i ;; wr v i (fofz RF x)) (repeat (fofz RF 0) (2 ^ lg)) = Ok (tab (2 ^ lg) (fun i => IZR (nth i a 0%Z))).
Proof.
  intros La. refine (fill_ok R 0 (2 ^ lg) _ _ _ (repeat_length _ _) _).
  intros i v Hi [L _]. rewrite (rd_Ok a i 0%Z) by lia. cbn [bind]. rewrite wr_Ok by (change (i < @length R v)%nat; rewrite L; exact Hi). reflexivity.
Qed.
Lemma d_to_c_ok lg (a : list Z) : length a = (2 ^ lg)%nat ->
  forn (2 ^ lg) 0 (fun i v => x <- rd (tab (2 ^ lg) (fun i => IZR (nth i a 0%Z)) : list (D RF)) i ;; wr v i (cof RF x)) (fresh RF (2 ^ lg)) =
  Ok (cpl (emb (ofl Z 0%Z (2 ^ lg) a))).
Proof.
  intros La. refine (fill_ok Cx Czero (2 ^ lg) _ (fresh RF (2 ^ lg)) _ (repeat_length _ _) _).
  intros i v Hi [L _].
  assert (E : rd (tab (2 ^ lg) (fun i => IZR (nth i a 0%Z)) : list (D RF)) i = Ok (IZR (nth i a 0%Z))).
  { change (D RF) with R. rewrite (rd_Ok _ i 0) by (rewrite tab_length; exact Hi). rewrite nth_tab by exact Hi. reflexivity. }
  rewrite E. cbn [bind]. rewrite wr_Ok by (change (i < @length Cx v)%nat; rewrite L; exact Hi). rewrite pc_ofl by exact Hi. reflexivity.
Qed.
Lemma int_norm lg (a : list Z) : length a = (2 ^ lg)%nat ->
  Rsum (2 ^ lg) (fun i => nth i (tab (2 ^ lg) (fun i => IZR (nth i a 0%Z))) 0 * nth i (tab (2 ^ lg) (fun i => IZR (nth i a 0%Z))) 0) = IZR (sqnorm a).
Proof.
  intros La. transitivity (Rsum (length a) (fun j => IZR (nth j a 0%Z * nth j a 0%Z))).
  - rewrite La. apply rsum_ext. intros j Hj. rewrite !nth_tab by exact Hj. rewrite mult_IZR. reflexivity.
  - clear La. induction a as [|x a IH]; [reflexivity|]. cbn [length]. rewrite (rsum_S_l _ _ _ _ _ _ _ RTheory). cbn [nth]. rewrite IH.
    change (sqnorm (x :: a)) with (x * x + sqnorm a)%Z. rewrite plus_IZR. reflexivity.
Qed.

(** the test of ntru_gen.hpp 110-166 computes the squared Gram-Schmidt norm *)
Lemma gsn_ok lg f g : (lg <= 10)%nat -> length f = (2 ^ lg)%nat -> length g = (2 ^ lg)%nat ->
  (forall i, (i < 2 ^ lg)%nat -> 0 < row_norm lg f g i) ->
  gram_schmidt_norm RF exact_table lg f g = Ok (gs_norm lg f g).
Proof.
  intros Hlg Lf Lg HP. unfold gram_schmidt_norm. rewrite (to_d_ok lg f Lf), (to_d_ok lg g Lg). cbn [bind].
  rewrite !norm_d_ok by apply tab_length. cbn [bind].
  rewrite (d_to_c_ok lg f Lf), (d_to_c_ok lg g Lg). cbn [bind]. rewrite !fft_cpl by assumption. cbn [bind].
  set (pf := emb (ofl Z 0%Z (2 ^ lg) f)). set (pg := emb (ofl Z 0%Z (2 ^ lg) g)).
  assert (LT : forall p : cpv (2 ^ lg), @length (D RF * D RF) (ft p) = (2 ^ lg)%nat) by (intros; apply ft_length).
  assert (LF : length (fresh RF (2 ^ lg)) = (2 ^ lg)%nat) by apply repeat_length.
  rewrite !(adj_raw RF lg) by apply LT. cbn [bind]. unfold cpoly_mul, cpoly_add, cpoly_div.
  assert (LA : forall p : cpv (2 ^ lg), @length (D RF * D RF) (map (cconj RF) (ft p)) = (2 ^ lg)%nat) by (intros; rewrite map_length; apply LT).
  rewrite !(zip_raw RF) by (apply LT || apply LA || apply LF). cbn [bind].
  rewrite !(zip_raw RF) by (apply LT || apply LA || apply LF || apply vop_length). cbn [bind].
  rewrite !(zip_raw RF) by (apply LT || apply LA || apply LF || apply vop_length). cbn [bind].
  assert (LV : forall op a b, @length Cx (vop RF op (2 ^ lg) a b) = (2 ^ lg)%nat) by (intros; apply (vop_length RF)).
  rewrite !sqnorm_raw by apply LV. cbn [bind]. apply (f_equal Ok).
  rewrite (int_norm lg f Lf), (int_norm lg g Lg). change (fmax RF) with Rmax. unfold gs_norm. rewrite plus_IZR. change (fadd RF) with Rplus. change (fmul RF) with Rmult. change (fofz RF) with IZR.
  match goal with |- ?a = ?b => change (@eq R a b) end. f_equal.
  set (sum := vop RF (cadd RF) (2 ^ lg) _ _).
  assert (Es : forall i, (i < 2 ^ lg)%nat -> nth i sum (c0 RF) = Cof (row_norm lg f g i)).
  { intros i Hi. unfold sum, vop. rewrite !(nth_tab (2 ^ lg)) by exact Hi.
    rewrite !nth_conj by (rewrite ft_length; exact Hi). rewrite !nth_ftz by exact Hi. rewrite dd_row by assumption. fold pf pg. unfold dd, sq. fold pf pg. generalize (ev pf i) (ev pg i). intros [a b] [c d]. ceq; ring. }
  assert (Eq : forall (p : cpv (2 ^ lg)) i, (i < 2 ^ lg)%nat -> sq (nth i (vop RF (fcdiv RF) (2 ^ lg) (map (cconj RF) (ft p)) sum) Czero) = sq (ev p i) / (row_norm lg f g i * row_norm lg f g i)).
  { intros p i Hi. unfold vop. change Cx with (D RF * D RF)%type. rewrite (nth_tab (2 ^ lg)) by exact Hi.
    rewrite Es by exact Hi. rewrite nth_conj by (rewrite ft_length; exact Hi). rewrite nth_ftz by exact Hi.
    specialize (HP i Hi). revert HP. generalize (row_norm lg f g i). intros r Hr. generalize (ev p i). intros [u v]. unfold sq. cbn. field. lra. }
  rewrite (rsum_ext _ _ _ _ (fun i => sq (nth i (vop RF (fcdiv RF) (2 ^ lg) (map (cconj RF) (ft pf)) sum) Czero)) (fun i => sq (ev pf i) / (row_norm lg f g i * row_norm lg f g i))) by (intros; apply Eq; assumption).
  rewrite (rsum_ext _ _ _ _ (fun i => sq (nth i (vop RF (fcdiv RF) (2 ^ lg) (map (cconj RF) (ft pg)) sum) Czero)) (fun i => sq (ev pg i) / (row_norm lg f g i * row_norm lg f g i))) by (intros; apply Eq; assumption).
  assert (G2 : gs_second lg f g = IZR (q * q) * Rsum (2 ^ lg) (fun i => / row_norm lg f g i) / INR (2 ^ lg)).
  { unfold gs_second. apply (f_equal (fun x => x / INR (2 ^ lg))). etransitivity; [apply Rsigma_sum|].
    rewrite <- Rsum_scal. reflexivity. }
  rewrite G2.
  assert (EE : Rsum (2 ^ lg) (fun i => / row_norm lg f g i) = Rsum (2 ^ lg) (fun i => sq (ev pf i) / (row_norm lg f g i * row_norm lg f g i)) + Rsum (2 ^ lg) (fun i => sq (ev pg i) / (row_norm lg f g i * row_norm lg f g i))).
  { rewrite <- (rsum_add _ _ _ _ _ _ _ RTheory). apply rsum_ext. intros i Hi. specialize (HP i Hi).
    assert (E := dd_row lg f g Lf Lg i). fold pf pg in E. unfold dd in E. fold pf pg in E. 
    transitivity ((sq (ev pf i) + sq (ev pg i)) / (row_norm lg f g i * row_norm lg f g i)); [|field; lra]. rewrite <- E. field. lra. }
  rewrite EE. rewrite mult_IZR. assert (P := INR_pow2_pos lg). unfold M_ff.Q, q. field. lra.
Qed.

(** ** Gram matrix and LDL decomposition, entry by entry *)
Lemma blocks4 (B : list Cx) n : length B = (4 * n)%nat -> exists b0 b1 b2 b3, B = b0 ++ b1 ++ b2 ++ b3 /\
  length b0 = n /\ length b1 = n /\ length b2 = n /\ length b3 = n.
Proof.
  intros L. exists (slice B 0 n), (slice B n n), (slice B (2 * n) n), (slice B (3 * n) n).
  split; [|rewrite !slice_length by lia; auto].
  rewrite <- (slice_all B (n + (n + (n + n)))) at 1 by lia. rewrite !slice_cat. cbn [Nat.add].
  replace (n + n)%nat with (2 * n)%nat by lia. replace (2 * n + n)%nat with (3 * n)%nat by lia. reflexivity.
Qed.
Lemma nth4 (b0 b1 b2 b3 : list Cx) n i d : length b0 = n -> length b1 = n -> length b2 = n -> length b3 = n -> (i < n)%nat ->
  nth (0 * n + i) (b0 ++ b1 ++ b2 ++ b3) d = nth i b0 d /\ nth (1 * n + i) (b0 ++ b1 ++ b2 ++ b3) d = nth i b1 d /\
  nth (2 * n + i) (b0 ++ b1 ++ b2 ++ b3) d = nth i b2 d /\ nth (3 * n + i) (b0 ++ b1 ++ b2 ++ b3) d = nth i b3 d.
Proof.
  intros L0 L1 L2 L3 Hi. repeat split.
  - rewrite app_nth1 by lia. f_equal.
  - rewrite app_nth2, app_nth1 by lia. f_equal. lia.
  - rewrite app_nth2, app_nth2, app_nth1 by lia. f_equal. lia.
  - rewrite app_nth2, app_nth2, app_nth2 by lia. f_equal. lia.
Qed.
Lemma vgram_nth n (a b c d : list Cx) i : length a = n -> length b = n -> length c = n -> length d = n -> (i < n)%nat ->
  nth i (vgram RF n a b c d : list Cx) Czero = Cadd (Cmul (nth i a Czero) (Cconj (nth i c Czero))) (Cmul (nth i b Czero) (Cconj (nth i d Czero))).
Proof.
  intros La Lb Lc Ld Hi. unfold vgram, vop. change Cx with (D RF * D RF)%type. rewrite (nth_tab n) by exact Hi. rewrite !(nth_tab n) by exact Hi.
  rewrite !nth_conj by congruence. reflexivity.
Qed.
Lemma gram_entries lg (B G0 : list Cx) : length B = (4 * 2 ^ lg)%nat -> length G0 = (4 * 2 ^ lg)%nat ->
  exists G, compute_gram_matrix RF lg B G0 = Ok G /\ length G = (4 * 2 ^ lg)%nat /\
  forall r c i, (r < 2)%nat -> (c < 2)%nat -> (i < 2 ^ lg)%nat ->
    nth ((2 * r + c) * 2 ^ lg + i) G Czero =
    Cadd (Cmul (nth ((2 * r + 0) * 2 ^ lg + i) B Czero) (Cconj (nth ((2 * c + 0) * 2 ^ lg + i) B Czero)))
         (Cmul (nth ((2 * r + 1) * 2 ^ lg + i) B Czero) (Cconj (nth ((2 * c + 1) * 2 ^ lg + i) B Czero))).
Proof.
  intros LB LG. destruct (blocks4 B _ LB) as [b0 [b1 [b2 [b3 [-> [L0 [L1 [L2 L3]]]]]]]].
  eexists. split; [exact (gram_raw RF lg b0 b1 b2 b3 G0 L0 L1 L2 L3 LG)|].
  split. { change Cx with (D RF * D RF)%type. rewrite !app_length, !vgram_length. lia. }
  intros r c i Hr Hc Hi.
  assert (V := fun a b c d : list Cx => vgram_length RF (2 ^ lg) a b c d).
  destruct (nth4 b0 b1 b2 b3 (2 ^ lg) i Czero L0 L1 L2 L3 Hi) as [E0 [E1 [E2 E3]]].
  destruct (nth4 _ _ _ _ (2 ^ lg) i Czero (V b0 b1 b0 b1) (V b0 b1 b2 b3) (V b2 b3 b0 b1) (V b2 b3 b2 b3) Hi) as [G0' [G1 [G2 G3]]].
  assert (Dr : r = 0%nat \/ r = 1%nat) by lia. assert (Dc : c = 0%nat \/ c = 1%nat) by lia.
  destruct Dr as [-> | ->]; destruct Dc as [-> | ->]; cbn [Nat.add Nat.mul]; cbn [Nat.add Nat.mul] in E0, E1, E2, E3, G0', G1, G2, G3; rewrite ?E0, ?E1, ?E2, ?E3.
  - etransitivity; [exact G0'|]. apply vgram_nth; assumption.
  - etransitivity; [exact G1|]. apply vgram_nth; assumption.
  - etransitivity; [exact G2|]. apply vgram_nth; assumption.
  - etransitivity; [exact G3|]. apply vgram_nth; assumption.
Qed.

Lemma ldl_blocks F lg (a b c d : list (D F * D F)) : length a = (2 ^ lg)%nat -> length b = (2 ^ lg)%nat -> length c = (2 ^ lg)%nat -> length d = (2 ^ lg)%nat ->
  ldl F lg (a ++ b ++ c ++ d) = Ok (vl10 F (2 ^ lg) a c, a, vd11 F (2 ^ lg) a c d).
Proof.
  intros La Lb Lc Ld. rewrite ldl_raw by (rewrite !app_length; lia).
  destruct (slices4 F a b c d (2 ^ lg)) as [S0 [S2 [S3 _]]]; try assumption. rewrite S0, S2, S3. reflexivity.
Qed.
Lemma ldl_entries lg (G : list Cx) : length G = (4 * 2 ^ lg)%nat ->
  (forall i, (i < 2 ^ lg)%nat -> snd (nth (0 * 2 ^ lg + i) G Czero) = 0 /\ fst (nth (0 * 2 ^ lg + i) G Czero) <> 0 /\ snd (nth (3 * 2 ^ lg + i) G Czero) = 0 /\
    nth (1 * 2 ^ lg + i) G Czero = Cconj (nth (2 * 2 ^ lg + i) G Czero)) ->
  exists l10 d00 d11, ldl RF lg G = Ok (l10, d00, d11) /\ length l10 = (2 ^ lg)%nat /\ length d00 = (2 ^ lg)%nat /\ length d11 = (2 ^ lg)%nat /\
  forall i, (i < 2 ^ lg)%nat ->
    let l := nth i l10 Czero in let d0 := nth i d00 Czero in let d1 := nth i d11 Czero in
    snd d0 = 0 /\ snd d1 = 0 /\
    nth (0 * 2 ^ lg + i) G Czero = d0 /\ nth (1 * 2 ^ lg + i) G Czero = Cmul d0 (Cconj l) /\
    nth (2 * 2 ^ lg + i) G Czero = Cmul l d0 /\ nth (3 * 2 ^ lg + i) G Czero = Cadd (Cmul (Cmul l d0) (Cconj l)) d1 /\
    Cmul d0 d1 = Csub (Cmul (nth (0 * 2 ^ lg + i) G Czero) (nth (3 * 2 ^ lg + i) G Czero)) (Cmul (nth (1 * 2 ^ lg + i) G Czero) (nth (2 * 2 ^ lg + i) G Czero)).
Proof.
  intros LG H. destruct (blocks4 G _ LG) as [b0 [b1 [b2 [b3 [-> [L0 [L1 [L2 L3]]]]]]]].
  assert (LG' : (4 * 2 ^ lg <= @length (D RF * D RF) (b0 ++ b1 ++ b2 ++ b3))%nat) by (change (D RF * D RF)%type with Cx; lia).
  assert (E := ldl_blocks RF lg b0 b1 b2 b3 L0 L1 L2 L3).
  eexists _, _, _. split; [exact E|]. 
  split; [apply (vop_length RF)|]. split; [exact L0|]. split; [apply (vop_length RF)|].
  intros i Hi. cbv zeta. specialize (H i Hi). destruct (nth4 b0 b1 b2 b3 (2 ^ lg) i Czero L0 L1 L2 L3 Hi) as [E0 [E1 [E2 E3]]].
  rewrite E0, E1, E2, E3 in H |- *. destruct H as [H0 [H1 [H3 H2]]].
  assert (El : nth i (vl10 RF (2 ^ lg) b0 b2 : list Cx) Czero = (fst (nth i b2 Czero) / fst (nth i b0 Czero), snd (nth i b2 Czero) / fst (nth i b0 Czero))).
  { unfold vl10, vop. change Cx with (D RF * D RF)%type. rewrite (nth_tab (2 ^ lg)) by exact Hi.
    change (D RF * D RF)%type with Cx. change (c0 RF) with Czero. revert H0 H1. generalize (nth i b0 Czero) (nth i b2 Czero). intros [u v] [x y]. cbn [fst snd]. intros -> H1. ceq; field; exact H1. }
  assert (Ed : nth i (vd11 RF (2 ^ lg) b0 b2 b3 : list Cx) Czero = Csub (nth i b3 Czero) (Cmul (Cmul (nth i (vl10 RF (2 ^ lg) b0 b2 : list Cx) Czero) (Cconj (nth i (vl10 RF (2 ^ lg) b0 b2 : list Cx) Czero))) (nth i b0 Czero))).
  { unfold vd11, vop. change Cx with (D RF * D RF)%type. rewrite (nth_tab (2 ^ lg)) by exact Hi. rewrite !(nth_tab (2 ^ lg)) by exact Hi.
    rewrite nth_conj by (unfold vl10; change Cx with (D RF * D RF)%type; rewrite (vop_length RF); exact Hi). reflexivity. }
  change (D RF * D RF)%type with Cx in Ed, El |- *. rewrite Ed, El, H2. revert H0 H1 H3. generalize (nth i b0 Czero) (nth i b2 Czero) (nth i b3 Czero). intros [u v] [x y] [s t]. cbn [fst snd]. intros -> H1 ->.
  unfold Cmul, Cconj, Cadd, Csub. cbn [fst snd].
  split; [reflexivity|]. split; [req; field; exact H1|]. split; [reflexivity|].
  repeat split; apply Cx_eq; cbn [fst snd]; req; field; exact H1.
Qed.

(** ** the tree of a key *)
Lemma tree_ok lg f g F_ G_ (T : list Cx) : (1 <= lg <= 10)%nat -> length f = (2 ^ lg)%nat -> length g = (2 ^ lg)%nat ->
  length F_ = (2 ^ lg)%nat -> length G_ = (2 ^ lg)%nat -> ntru (2 ^ lg) f g F_ G_ -> ((lg + 1) * 2 ^ lg <= length T)%nat ->
  exists T', compute_falcon_tree RF exact_table lg (Bex lg f g F_ G_) T = Ok T' /\ length T' = length T /\
    stored RF (2 ^ lg) lg T' 0 (ntree RF (sigma_value RF lg) (root_tree lg f g F_ G_)).
Proof.
  intros [H1 Hlg] Lf Lg LF LG HN LT. unfold compute_falcon_tree, Bex.
  assert (LTt : forall p : cpv (2 ^ lg), @length (D RF * D RF) (ft p) = (2 ^ lg)%nat) by (intros; apply ft_length).
  rewrite gram_raw by (apply LTt || (unfold fresh; rewrite repeat_length; lia)). cbn [bind].
  rewrite gram00, gram11 by assumption.
  set (g10 := vgram RF (2 ^ lg) (ft (emb (ofl Z 0%Z (2 ^ lg) G_))) _ _ _).
  set (g01 := vgram RF (2 ^ lg) (ft (emb (ofl Z 0%Z (2 ^ lg) g))) _ _ _).
  set (Gm := _ ++ _ ++ _ ++ _).
  assert (V0 : @length (D RF * D RF) (rv (2 ^ lg) (dd lg f g)) = (2 ^ lg)%nat) by apply rv_length.
  assert (V3 : @length (D RF * D RF) (rv (2 ^ lg) (dd2 lg F_ G_)) = (2 ^ lg)%nat) by apply rv_length.
  destruct (slices4 RF (rv (2 ^ lg) (dd lg f g)) g01 g10 (rv (2 ^ lg) (dd2 lg F_ G_)) (2 ^ lg)) as [S0 [S2 [S3 _]]]; [exact V0|apply vgram_length|apply vgram_length|exact V3|].
  destruct (ffldl_ok RF exact_table (2 ^ lg) lg 0 Gm T 0) as [T1 [E1 [L1 [_ St]]]].
  - exact H1. - reflexivity. 
  - change (2 ^ lg <= @length Cx exact_table)%nat. rewrite table_length. change 1024%nat with (2 ^ 10)%nat. apply Nat.pow_le_mono_r; lia.
  - unfold Gm. rewrite !app_length, V0, V3. unfold g01, g10. rewrite !vgram_length. lia.
  - change (0 + lg * 2 ^ lg + 2 ^ lg <= @length Cx T)%nat. lia.
  - rewrite E1. cbn [bind].
    unfold Gm in St. rewrite S0, S2, S3 in St.
    assert (LT1 : (0 + lg * 2 ^ lg + 2 ^ lg <= length T1)%nat) by (rewrite L1; change (0 + lg * 2 ^ lg + 2 ^ lg <= @length Cx T)%nat; lia).
    destruct (normalize_ok RF (2 ^ lg) (sigma_value RF lg) lg 0 T1 0 _ H1 eq_refl LT1 St) as [T2 [E2 [L2 [_ St2]]]].
    rewrite E2. exists T2. split; [reflexivity|]. split; [etransitivity; [exact L2|exact L1]|]. exact St2.
Qed.

Lemma inv_bound (m Q x : R) : 0 < Q -> 0 < x -> / x <= m / Q -> x <= m -> Q / m <= x.
Proof.
  intros HQ Hx H2 H3. apply Rmult_le_reg_r with (m * / x); [apply Rmult_lt_0_compat; [lra|apply Rinv_0_lt_compat; exact Hx]|].
  replace (x * (m * / x)) with m by (field; lra). replace (Q / m * (m * / x)) with (Q * / x) by (field; lra).
  apply Rmult_le_compat_l with (r := Q) in H2; [|lra]. replace (Q * (m / Q)) with m in H2 by (field; lra). exact H2.
Qed.
Lemma leaf_cells lg f g F_ G_ (T : list Cx) : (1 <= lg <= 10)%nat -> length f = (2 ^ lg)%nat -> length g = (2 ^ lg)%nat ->
  length F_ = (2 ^ lg)%nat -> length G_ = (2 ^ lg)%nat -> ntru (2 ^ lg) f g F_ G_ -> ((lg + 1) * 2 ^ lg <= length T)%nat ->
  exists B T', compute_matrix_B RF exact_table lg f g F_ G_ = Ok B /\ compute_falcon_tree RF exact_table lg B T = Ok T' /\ length T' = length T /\
  forall j, (j < 2 ^ lg)%nat -> exists x, 0 < x /\ IZR (q * q) / gs_norm lg f g <= x <= gs_norm lg f g /\
    nth (lg * 2 ^ lg + j) T' Czero = Cof (sigma_value RF lg / sqrt x).
Proof.
  intros H1 Lf Lg LF LG HN LT. destruct (tree_ok lg f g F_ G_ T H1 Lf Lg LF LG HN LT) as [T' [E [L St]]].
  exists (Bex lg f g F_ G_), T'. split; [apply matrix_B_ok; (assumption || lia)|]. split; [exact E|]. split; [exact L|].
  destruct (stored_leaves RF _ _ _ _ _ St) as [LL NL]. intros j Hj. specialize (NL j Hj). rewrite ntree_leaves in LL, NL.
  assert (RL := root_leaves lg ltac:(lia) f g F_ G_ Lf Lg HN ltac:(lia)) || assert (RL := root_leaves lg ltac:(lia) f g F_ G_ Lf Lg LF LG HN ltac:(lia)).
  rewrite map_length in LL. rewrite Forall_forall in RL. 
  assert (RJ := RL (nth j (leaves (root_tree lg f g F_ G_)) Czero)). destruct RJ as [R0 [R1 [R2 R3]]].
  { apply nth_In. change (j < @length (D RF * D RF) (leaves (root_tree lg f g F_ G_)))%nat. rewrite LL. exact Hj. }
  exists (fst (nth j (leaves (root_tree lg f g F_ G_)) Czero)). split; [exact R1|]. split; [split|].
  - exact (inv_bound _ _ _ qq_pos R1 R2 R3).
  - exact R3.
  - etransitivity; [exact NL|]. rewrite (nth_indep _ (c0 RF) (nleaf RF (sigma_value RF lg) Czero)) by (rewrite map_length, LL; exact Hj).
    rewrite map_nth. reflexivity.
Qed.

(** a common zero of f and g at an evaluation point is impossible for a solvable pair *)
Lemma ntru_row_pos lg f g F_ G_ i : length f = (2 ^ lg)%nat -> length g = (2 ^ lg)%nat -> ntru (2 ^ lg) f g F_ G_ -> 0 < row_norm lg f g i.
Proof. intros Lf Lg HN. rewrite dd_row by assumption. apply (dd_pos lg f g F_ G_); assumption. Qed.
