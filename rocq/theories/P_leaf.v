(** P_leaf.v -- standard deviations at the leaves of the tree of a generated key, in exact arithmetic. *)
From Verif Require Import Base Ring Poly Spec SpecR M_xform P_xform M_codec P_codec M_float M_exact P_exact M_samp M_fft M_ntru P_ntru P_ntru2 P_keygen M_tree P_tree P_brv P_cplx P_fft P_treex P_gs.
From Coq Require Import Ring_theory Ring Lra.
Open Scope R_scope.

Lemma threshold_val : gs_norm_threshold RF = 117 / 100 * (117 / 100) * 12289.
Proof. reflexivity. Qed.
Lemma fgt_RF x y : fgt RF x y = false -> x <= y.
Proof. unfold fgt, RF. destruct (Rlt_dec y x); [discriminate|lra]. Qed.

(** every generated pair (f, g) has squared Gram-Schmidt norm at most 1.17^2 q *)
Lemma gen_gs fuel sfuel lg rng pos f0 g0 F0 G0 f g F_ G_ pos' : byte_stream rng -> falcon_lg lg ->
  length f0 = (2 ^ lg)%nat -> length g0 = (2 ^ lg)%nat -> length F0 = (2 ^ lg)%nat -> length G0 = (2 ^ lg)%nat ->
  ntru_gen RF exact_table fuel sfuel lg rng pos f0 g0 F0 G0 = Ok (f, g, F_, G_, pos') ->
  gs_norm lg f g <= 117 / 100 * (117 / 100) * 12289.
Proof.
  intros Hg Hlg L1 L2 L3 L4 H. assert (H0 := H). apply ntru_gen_ok in H; try assumption; [|exact small_exact_RF].
  destruct H as [Lf [Lg [_ [_ [_ [[v [Ev Hv]] [F' [G' [LF [LG [Hn _]]]]]]]]]]].
  rewrite gsn_ok in Ev; try assumption.
  - apply (f_equal (fun r => match r with Ok v => v | _ => 0 end)) in Ev. rewrite <- Ev in Hv. apply fgt_RF in Hv. rewrite threshold_val in Hv. exact Hv.
  - destruct Hlg; lia.
  - intros i Hi. apply (ntru_row_pos lg f g F' G'); assumption.
Qed.

Lemma sigma_9 : sigma_value RF 9 = 165736617183 / 1000000000. Proof. reflexivity. Qed.
Lemma sigma_10 : sigma_value RF 10 = 168388571447 / 1000000000. Proof. reflexivity. Qed.

(** s / sqrt x against a bound, by squares *)
Lemma div_sqrt_ge s x b : 0 < s -> 0 < x -> 0 < b -> b * b * x <= s * s -> b <= s / sqrt x.
Proof.
  intros Hs Hx Hb H. assert (P := sqrt_lt_R0 x Hx). assert (E := sqrt_sqrt x ltac:(lra)).
  apply Rmult_le_reg_r with (sqrt x); [exact P|]. unfold Rdiv. rewrite Rmult_assoc, Rinv_l, Rmult_1_r by lra.
  apply Rsqr_incr_0_var; [|lra]. unfold Rsqr. nra.
Qed.
Lemma div_sqrt_le s x b : 0 < s -> 0 < x -> 0 < b -> s * s <= b * b * x -> s / sqrt x <= b.
Proof.
  intros Hs Hx Hb H. assert (P := sqrt_lt_R0 x Hx). assert (E := sqrt_sqrt x ltac:(lra)).
  apply Rmult_le_reg_r with (sqrt x); [exact P|]. unfold Rdiv. rewrite Rmult_assoc, Rinv_l, Rmult_1_r by lra.
  apply Rsqr_incr_0_var; [|apply Rmult_le_pos; lra]. unfold Rsqr. nra.
Qed.
Lemma leaf_range lg m x : falcon_lg lg -> 0 < x -> IZR (q * q) / m <= x <= m -> m <= 117 / 100 * (117 / 100) * 12289 ->
  leaf_lo lg <= sigma_value RF lg / sqrt x <= leaf_hi lg.
Proof.
  intros Hlg Hx [H1 H2] Hm. assert (Hx1 : x <= 117 / 100 * (117 / 100) * 12289) by lra.
  assert (Hx2 : 12289 / (117 / 100 * (117 / 100)) <= x).
  { apply Rle_trans with (IZR (q * q) / m); [|exact H1]. replace (IZR (q * q)) with (12289 * 12289) by (rewrite mult_IZR; reflexivity).
    apply Rmult_le_reg_r with m; [lra|]. replace (12289 * 12289 / m * m) with (12289 * 12289) by (field; lra). lra. }
  clear H1 H2 Hm. destruct Hlg as [-> | ->]; unfold leaf_lo, leaf_hi; cbn [Nat.eqb]; [rewrite sigma_9|rewrite sigma_10];
    split; [apply div_sqrt_ge|apply div_sqrt_le|apply div_sqrt_ge|apply div_sqrt_le]; lra.
Qed.

Lemma gen_leaves fuel sfuel lg rng pos f0 g0 F0 G0 f g F_ G_ pos' (T : list Cx) : byte_stream rng -> falcon_lg lg ->
  length f0 = (2 ^ lg)%nat -> length g0 = (2 ^ lg)%nat -> length F0 = (2 ^ lg)%nat -> length G0 = (2 ^ lg)%nat ->
  ntru_gen RF exact_table fuel sfuel lg rng pos f0 g0 F0 G0 = Ok (f, g, F_, G_, pos') ->
  Forall (fun x => Z.abs x <= 27000)%Z F_ -> Forall (fun x => Z.abs x <= 27000)%Z G_ ->
  length T = ((lg + 1) * 2 ^ lg)%nat ->
  exists B T', compute_matrix_B RF exact_table lg f g F_ G_ = Ok B /\ compute_falcon_tree RF exact_table lg B T = Ok T' /\ length T' = length T /\
  forall j, (j < 2 ^ lg)%nat -> snd (nth (lg * 2 ^ lg + j) T' Czero) = 0 /\ leaf_lo lg <= fst (nth (lg * 2 ^ lg + j) T' Czero) <= leaf_hi lg.
Proof.
  intros Hg Hlg L1 L2 L3 L4 H BF BG LT. assert (GS := gen_gs _ _ _ _ _ _ _ _ _ _ _ _ _ _ Hg Hlg L1 L2 L3 L4 H).
  apply ntru_gen_spec in H; try assumption; [|exact small_exact_RF]. destruct H as [Lf [Lg [LF [LG [_ [_ [_ [_ HN]]]]]]]]. specialize (HN BF BG).
  destruct (leaf_cells lg f g F_ G_ T) as [B [T' [EB [ET [L' HL]]]]]; try assumption; [destruct Hlg; lia|lia|].
  exists B, T'. split; [exact EB|]. split; [exact ET|]. split; [exact L'|]. intros j Hj. destruct (HL j Hj) as [x [Hx [HB ->]]].
  split; [reflexivity|]. apply (leaf_range lg (gs_norm lg f g) x Hlg Hx HB GS).
Qed.

Lemma short_leaves lg f g F_ G_ (T : list Cx) : falcon_lg lg ->
  length f = (2 ^ lg)%nat -> length g = (2 ^ lg)%nat -> length F_ = (2 ^ lg)%nat -> length G_ = (2 ^ lg)%nat -> ntru (2 ^ lg) f g F_ G_ ->
  gs_norm lg f g <= 117 / 100 * (117 / 100) * 12289 -> length T = ((lg + 1) * 2 ^ lg)%nat ->
  exists B T', compute_matrix_B RF exact_table lg f g F_ G_ = Ok B /\ compute_falcon_tree RF exact_table lg B T = Ok T' /\ length T' = length T /\
  forall j, (j < 2 ^ lg)%nat -> snd (nth (lg * 2 ^ lg + j) T' Czero) = 0 /\ leaf_lo lg <= fst (nth (lg * 2 ^ lg + j) T' Czero) <= leaf_hi lg.
Proof.
  intros Hlg Lf Lg LF LG HN GS LT.
  destruct (leaf_cells lg f g F_ G_ T) as [B [T' [EB [ET [L' HL]]]]]; try assumption; [destruct Hlg; lia|lia|].
  exists B, T'. split; [exact EB|]. split; [exact ET|]. split; [exact L'|]. intros j Hj. destruct (HL j Hj) as [x [Hx [HB ->]]].
  split; [reflexivity|]. apply (leaf_range lg (gs_norm lg f g) x Hlg Hx HB GS).
Qed.

(** ** example key for N = 512: f = 100, g = 1, F = 11, G = 123 *)
Definition cst (n : nat) (c : Z) : list Z := c :: repeat 0%Z (n - 1).
Lemma cst_length n c : (1 <= n)%nat -> length (cst n c) = n.
Proof. intros H. cbn [cst length]. unfold cst. cbn [length]. rewrite repeat_length. lia. Qed.
Lemma cst_ofl n c : (1 <= n)%nat -> ofl Z 0%Z n (cst n c) = pcst Z 0%Z c.
Proof.
  intros H. apply (pv_ext Z 0%Z). intros k Hk. unfold pcst. rewrite pc_ofl, pc_mkp by exact Hk. unfold cst. destruct k as [|k]; [reflexivity|].
  cbn [nth Nat.eqb]. apply nth_repeat.
Qed.
Lemma cst_ntru n a b c d : (1 <= n)%nat -> (a * d - b * c)%Z = q -> ntru n (cst n a) (cst n b) (cst n c) (cst n d).
Proof.
  intros Hn H. apply ntru_iff. rewrite !cst_ofl by exact Hn. rewrite <- H.
  apply (pv_ext Z 0%Z). intros k Hk. rewrite pc_sub by exact Hk.
  rewrite !pc_cst_mul by exact Hk. unfold pcst. rewrite !pc_mkp by exact Hk. destruct (k =? 0)%nat; ring.
Qed.
Lemma cst_row lg a b i : row_norm lg (cst (2 ^ lg) a) (cst (2 ^ lg) b) i = IZR (a * a + b * b).
Proof.
  assert (P := pow2_pos lg). rewrite dd_row by (apply cst_length; lia). unfold dd. rewrite !cst_ofl by lia. rewrite !emb_cst, !ev_cst.
  unfold sq, Cz. cbn [fst snd]. rewrite plus_IZR, !mult_IZR. ring.
Qed.
Lemma sqnorm_cst n c : sqnorm (cst n c) = (c * c)%Z.
Proof.
  unfold cst. change (sqnorm (c :: repeat 0%Z (n - 1))) with (c * c + sqnorm (repeat 0%Z (n - 1)))%Z.
  assert (E : forall m, sqnorm (repeat 0%Z m) = 0%Z). { induction m as [|m IH]; [reflexivity|]. change (sqnorm (repeat 0%Z (S m))) with (0 * 0 + sqnorm (repeat 0%Z m))%Z. rewrite IH. reflexivity. }
  rewrite E. ring.
Qed.
Lemma cst_gs lg a b : (0 < a * a + b * b)%Z -> gs_norm lg (cst (2 ^ lg) a) (cst (2 ^ lg) b) = Rmax (IZR (a * a + b * b)) (IZR (q * q) / IZR (a * a + b * b)).
Proof.
  intros H. unfold gs_norm. rewrite !sqnorm_cst. apply (f_equal (Rmax _)). unfold gs_second.
  assert (E : forall n, Rsigma n (fun i => IZR (q * q) / row_norm lg (cst (2 ^ lg) a) (cst (2 ^ lg) b) i) = INR n * (IZR (q * q) / IZR (a * a + b * b))).
  { induction n as [|n IH]; [simpl; ring|]. cbn [Rsigma]. rewrite IH, cst_row, S_INR. ring. }
  rewrite E. assert (P := INR_pow2_pos lg). apply IZR_lt in H. field. split; lra.
Qed.
Lemma key_100 : let k := cst (2 ^ 9) in ntru (2 ^ 9) (k 100%Z) (k 1%Z) (k 11%Z) (k 123%Z) /\
  gs_norm 9 (k 100%Z) (k 1%Z) <= 117 / 100 * (117 / 100) * 12289.
Proof.
  cbv zeta. split; [apply cst_ntru; [apply pow2_pos|reflexivity]|].
  rewrite cst_gs by reflexivity. change (100 * 100 + 1 * 1)%Z with 10001%Z. change (q * q)%Z with 151019521%Z. apply Rmax_lub; lra.
Qed.
