(** P_treel.v -- memory layout of the Falcon tree, whatever the floating point operations do. *)
From Verif Require Import Base Spec Ring Poly M_xform P_xform M_codec P_codec M_float M_samp M_fft M_ntru P_ntru M_tree P_tree.
Open Scope nat_scope.

Lemma nth_upd_eq {A} (l : list A) i v d : i < length l -> nth i (upd l i v) d = v.
Proof. intros H. rewrite nth_upd, Nat.eqb_refl by exact H. reflexivity. Qed.
Lemma nth_upd_neq {A} (l : list A) i v j d : i < length l -> i <> j -> nth j (upd l i v) d = nth j l d.
Proof. intros L H. rewrite nth_upd by exact L. replace (j =? i)%nat with false by (symmetry; apply Nat.eqb_neq; lia). reflexivity. Qed.

Section Gen.
Variable F : fops.
Notation C := (D F * D F)%type.
Variable ztab : list C.
Notation z := (c0 F).

Lemma region_split W h off k : region W (S h) off k -> (off <= k < off + 2 ^ S h) \/ region W h (off + W) k \/ region W h (off + W + 2 ^ h) k.
Proof.
  intros [l [Hl Hk]]. change (2 ^ S h) with (2 ^ h + (2 ^ h + 0)) in *. destruct l as [|l]; [left; lia|right].
  destruct (Nat.lt_ge_cases k (off + S l * W + 2 ^ h)) as [K|K]; [left|right]; exists l; split; simpl in *; lia.
Qed.
Lemma stored_det W : forall h T T' off t k, stored F W h T off t -> stored F W h T' off t -> region W h off k -> nth k T' z = nth k T z.
Proof.
  induction h as [|h IH]; intros T T' off t k H H' R; destruct t as [x|l a b]; cbn [stored] in H, H'; try contradiction.
  - destruct R as [l [Hl Hk]]. simpl in Hk. assert (l = 0) by lia. subst l. replace k with off by lia. congruence.
  - destruct H as [L [N [A B]]], H' as [_ [N' [A' B']]]. apply region_split in R. destruct R as [R|[R|R]].
    + replace k with (off + (k - off)) by lia. rewrite N, N' by lia. reflexivity.
    + apply (IH _ _ _ _ _ A A' R).
    + apply (IH _ _ _ _ _ B B' R).
Qed.
Lemma region_root h k : region (2 ^ h) h 0 k <-> k < (h + 1) * 2 ^ h.
Proof.
  assert (P := pow2_pos h). split.
  - intros [l [Hl Hk]]. apply Nat.lt_le_trans with (0 + l * 2 ^ h + 2 ^ h); [lia|].
    transitivity ((l + 1) * 2 ^ h); [lia|]. apply Nat.mul_le_mono_r. lia.
  - intros Hk. exists (k / 2 ^ h). assert (D := Nat.div_mod k (2 ^ h) ltac:(lia)). assert (M := Nat.mod_upper_bound k (2 ^ h) ltac:(lia)).
    assert (k / 2 ^ h < h + 1) by (apply Nat.div_lt_upper_bound; lia). split; lia.
Qed.

(** the tree built by ffldl fills the first (h+1) 2^h cells with values that do not depend on the previous contents
    of the array, and changes nothing else *)
Lemma ffldl_layout h G : 1 <= h -> 2 ^ h <= length ztab -> length G = 4 * 2 ^ h ->
  exists t, length t = (h + 1) * 2 ^ h /\
  forall T, (h + 1) * 2 ^ h <= length T -> ffldl F ztab h 0 G T 0 = Ok (t ++ skipn ((h + 1) * 2 ^ h) T).
Proof.
  intros H1 Lz LG. set (n := (h + 1) * 2 ^ h).
  destruct (ffldl_ok F ztab (2 ^ h) h 0 G (repeat z n) 0) as [T0 [E0 [L0 [_ S0]]]]; try assumption; try reflexivity.
  { rewrite repeat_length. unfold n. lia. }
  rewrite repeat_length in L0. exists T0. split; [exact L0|]. intros T LT.
  destruct (ffldl_ok F ztab (2 ^ h) h 0 G T 0) as [T1 [E1 [L1 [O1 S1]]]]; try assumption; try reflexivity; [unfold n in LT; lia|].
  rewrite E1. f_equal. apply (list_ext z). { rewrite app_length, skipn_length, L0, L1. lia. }
  intros k Hk. destruct (Nat.lt_ge_cases k n) as [K|K].
  - rewrite app_nth1 by lia. apply (stored_det (2 ^ h) h _ _ _ _ _ S0 S1). apply region_root. exact K.
  - rewrite app_nth2 by lia. rewrite O1 by (rewrite region_root; unfold n in K; lia). rewrite nth_skipn, L0. f_equal. lia.
Qed.

(** normalize_tree changes exactly the last row *)
Lemma normalize_gen W sigma : forall h lvl T off, 1 <= h -> W = 2 ^ (lvl + h) -> off + h * W + 2 ^ h <= length T ->
  exists T', normalize_tree F h lvl T off sigma = Ok T' /\ length T' = length T /\
    forall k, nth k T' z = if ((off + h * W <=? k) && (k <? off + h * W + 2 ^ h))%bool then nleaf F sigma (nth k T z) else nth k T z.
Proof.
  induction h as [|h IH]; intros lvl T off H1 HW LT; [lia|].
  assert (HP : 2 ^ lvl * 2 ^ S h = W) by (rewrite HW, Nat.pow_add_r; reflexivity).
  assert (HWge : 2 ^ S h <= W) by (rewrite HW; apply Nat.pow_le_mono_r; lia).
  assert (EE : 2 ^ S h = 2 ^ h + 2 ^ h) by (simpl; lia). assert (P := pow2_pos h).
  cbn [normalize_tree]. rewrite HP, half_pow2. destruct h as [|h'].
  - change (2 ^ 0) with 1 in *. change (2 ^ 1) with 2 in *.
    rewrite norm_leaf_raw by lia. cbn [bind]. rewrite norm_leaf_raw by (rewrite upd_length; lia). eexists. split; [reflexivity|].
    split; [rewrite !upd_length; reflexivity|]. intros k.
    destruct (Nat.eq_dec k (off + W)) as [->|N0].
    { rewrite nth_upd_neq by (rewrite ?upd_length; lia). rewrite nth_upd_eq by lia.
      replace (off + 1 * W <=? off + W) with true by (symmetry; apply Nat.leb_le; lia).
      replace (off + W <? off + 1 * W + 2) with true by (symmetry; apply Nat.ltb_lt; lia). reflexivity. }
    destruct (Nat.eq_dec k (off + W + 1)) as [->|N1].
    { rewrite nth_upd_eq by (rewrite upd_length; lia). rewrite nth_upd_neq by (rewrite ?upd_length; lia).
      replace (off + 1 * W <=? off + W + 1) with true by (symmetry; apply Nat.leb_le; lia).
      replace (off + W + 1 <? off + 1 * W + 2) with true by (symmetry; apply Nat.ltb_lt; lia). reflexivity. }
    rewrite !nth_upd_neq by (rewrite ?upd_length; lia).
    destruct (Nat.leb_spec (off + 1 * W) k); destruct (Nat.ltb_spec k (off + 1 * W + 2)); cbn [andb]; try reflexivity. lia.
  - set (h := S h') in *.
    destruct (IH (S lvl) T (off + W)) as [T1 [E1 [L1 N1]]]; [lia|rewrite HW; f_equal; lia|simpl in LT |- *; lia|].
    destruct (IH (S lvl) T1 (off + W + 2 ^ h)) as [T2 [E2 [L2 N2]]]; [lia|rewrite HW; f_equal; lia|rewrite L1; simpl in LT |- *; lia|].
    rewrite E1. cbn [bind]. rewrite E2. eexists. split; [reflexivity|]. split; [congruence|]. intros k. rewrite N2, N1.
    replace (S h * W) with (W + h * W) by (simpl; lia). rewrite EE.
    destruct (Nat.leb_spec (off + W + 2 ^ h + h * W) k); destruct (Nat.ltb_spec k (off + W + 2 ^ h + h * W + 2 ^ h));
    destruct (Nat.leb_spec (off + W + h * W) k); destruct (Nat.ltb_spec k (off + W + h * W + 2 ^ h));
    destruct (Nat.leb_spec (off + (W + h * W)) k); destruct (Nat.ltb_spec k (off + (W + h * W) + (2 ^ h + 2 ^ h))); cbn [andb]; try reflexivity; lia.
Qed.
Lemma normalize_layout h sigma T : 1 <= h -> (h + 1) * 2 ^ h <= length T ->
  exists T', normalize_tree F h 0 T 0 sigma = Ok T' /\ length T' = length T /\
    forall k, nth k T' z = if ((h * 2 ^ h <=? k) && (k <? (h + 1) * 2 ^ h))%bool then (fdiv F sigma (fsqrt F (fst (nth k T z))), fofz F 0) else nth k T z.
Proof.
  intros H1 LT. destruct (normalize_gen (2 ^ h) sigma h 0 T 0 H1 eq_refl ltac:(lia)) as [T' [E [L N]]].
  exists T'. split; [exact E|]. split; [exact L|]. intros k. rewrite N. replace (0 + h * 2 ^ h + 2 ^ h) with ((h + 1) * 2 ^ h) by lia. reflexivity.
Qed.

(** ff_sampling reads only the tree cells *)
Lemma region_sub W h off k : region W h (off + W) k \/ region W h (off + W + 2 ^ h) k -> region W (S h) off k.
Proof. intros [[l [Hl Hk]]|[l [Hl Hk]]]; exists (S l); change (2 ^ S h) with (2 ^ h + (2 ^ h + 0)); simpl; lia. Qed.
Lemma ffsamp_frame fuel smin g W : forall h lvl t0 t1 T T' off pos, W = 2 ^ (lvl + h) ->
  off + h * W + 2 ^ h <= length T -> off + h * W + 2 ^ h <= length T' -> (forall k, region W h off k -> nth k T' z = nth k T z) ->
  ff_sampling F ztab fuel h lvl t0 t1 T off smin g pos = ff_sampling F ztab fuel h lvl t0 t1 T' off smin g pos.
Proof.
  induction h as [|h IH]; intros lvl t0 t1 T T' off pos HW LT LT' HR.
  - cbn [ff_sampling]. rewrite (rd_Ok T off z), (rd_Ok T' off z) by (simpl in *; lia). cbn [bind].
    rewrite HR by (exists 0; simpl; lia). reflexivity.
  - assert (HP : 2 ^ lvl * 2 ^ S h = W) by (rewrite HW, Nat.pow_add_r; reflexivity).
    assert (HWge : 2 ^ S h <= W) by (rewrite HW; apply Nat.pow_le_mono_r; lia).
    assert (EE : 2 ^ S h = 2 ^ h + 2 ^ h) by (simpl; lia). assert (P := pow2_pos h).
    cbn [ff_sampling]. rewrite HP, half_pow2. rewrite !rds_ok by (simpl in *; lia). cbn [bind].
    assert (Es : slice T' off (2 ^ S h) = slice T off (2 ^ S h)).
    { apply (list_ext z); [rewrite !slice_length by (simpl in *; lia); reflexivity|]. rewrite slice_length by (simpl in *; lia). intros i Hi.
      rewrite !nth_slice by exact Hi. apply HR. exists 0. lia. }
    rewrite Es.
    assert (IHr := fun t0 t1 pos => IH (S lvl) t0 t1 T T' (off + W + 2 ^ h) pos ltac:(rewrite HW; f_equal; lia) ltac:(simpl in *; lia) ltac:(simpl in *; lia) (fun k R => HR k (region_sub _ _ _ _ (or_intror R)))).
    assert (IHl := fun t0 t1 pos => IH (S lvl) t0 t1 T T' (off + W) pos ltac:(rewrite HW; f_equal; lia) ltac:(simpl in *; lia) ltac:(simpl in *; lia) (fun k R => HR k (region_sub _ _ _ _ (or_introl R)))).
    destruct (split_fft F ztab (S h) t1 (fresh F (2 ^ h)) (fresh F (2 ^ h))) as [[a b]| |]; cbn [bind]; try reflexivity.
    rewrite IHr. destruct (ff_sampling F ztab fuel h (S lvl) a b T' (off + W + 2 ^ h) smin g pos) as [[[u v] p]| |]; cbn [bind]; try reflexivity.
    destruct (merge_fft F ztab (S h) u v (fresh F (2 ^ S h))) as [mz| |]; cbn [bind]; try reflexivity.
    destruct (cpoly_sub F (S h) t1 mz (fresh F (2 ^ S h))) as [x| |]; cbn [bind]; try reflexivity.
    destruct (cpoly_mul F (S h) x (slice T off (2 ^ S h)) (fresh F (2 ^ S h))) as [y| |]; cbn [bind]; try reflexivity.
    destruct (cpoly_add F (S h) t0 y x) as [w| |]; cbn [bind]; try reflexivity.
    destruct (split_fft F ztab (S h) w (fresh F (2 ^ h)) (fresh F (2 ^ h))) as [[c d]| |]; cbn [bind]; try reflexivity.
    rewrite IHl. reflexivity.
Qed.
Lemma ffsamp_layout fuel smin g h t0 t1 T pos : (h + 1) * 2 ^ h <= length T ->
  ff_sampling F ztab fuel h 0 t0 t1 T 0 smin g pos = ff_sampling F ztab fuel h 0 t0 t1 (firstn ((h + 1) * 2 ^ h) T) 0 smin g pos.
Proof.
  intros LT. apply (ffsamp_frame fuel smin g (2 ^ h)); [reflexivity|lia|rewrite firstn_length; lia|].
  intros k R. apply region_root in R. apply nth_firstn. exact R.
Qed.
End Gen.
