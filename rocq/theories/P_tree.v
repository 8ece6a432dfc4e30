(** P_tree.v -- Gram matrix, LDL*, the Falcon tree and its memory layout, for any floating point behaviour. *)
From Verif Require Import Base Spec M_xform P_xform M_codec P_codec M_float M_samp M_fft M_ntru P_ntru M_tree.
Open Scope nat_scope.

Lemma nth_firstn {A} (l : list A) : forall n i d, i < n -> nth i (firstn n l) d = nth i l d.
Proof. induction l as [|a l IH]; intros [|n] [|i] d H; try lia; try reflexivity. simpl. apply IH. lia. Qed.
Lemma nth_skipn {A} o : forall (l : list A) i d, nth i (skipn o l) d = nth (o + i) l d.
Proof. induction o as [|o IH]; intros [|a l] i d; try reflexivity; simpl; [destruct i; reflexivity|apply IH]. Qed.
Lemma nth_slice {A} (l : list A) o n i d : i < n -> nth i (slice l o n) d = nth (o + i) l d.
Proof. intros H. unfold slice. rewrite nth_firstn by exact H. apply nth_skipn. Qed.

Lemma nth_wrs {A} (d : A) (l : list A) o vs : o + length vs <= length l -> exists l', wrs l o vs = Ok l' /\ length l' = length l /\
  forall k, nth k l' d = if (o <=? k) && (k <? o + length vs) then nth (k - o) vs d else nth k l d.
Proof.
  intros H. rewrite wrs_ok by exact H. eexists. split; [reflexivity|]. split.
  - rewrite !app_length, firstn_length, skipn_length. lia.
  - intros k. assert (L1 : length (firstn o l) = o) by (rewrite firstn_length; lia).
    destruct (Nat.leb_spec o k); simpl.
    + rewrite app_nth2, L1 by lia. destruct (Nat.ltb_spec k (o + length vs)); simpl.
      * apply app_nth1. lia.
      * rewrite app_nth2 by lia. rewrite <- (firstn_skipn (o + length vs) l) at 2. rewrite (app_nth2 (firstn _ l)) by (rewrite firstn_length; lia).
        rewrite firstn_length, Nat.min_l by lia. f_equal. lia.
    + rewrite app_nth1 by lia. rewrite <- (firstn_skipn o l) at 2. rewrite app_nth1 by lia. reflexivity.
Qed.

Section Gen.
Variable F : fops.
Notation C := (D F * D F)%type.
Variable ztab : list C.
Notation z := (c0 F).

Definition vop (op : C -> C -> C) (n : nat) (a b : list C) : list C := tab n (fun i => op (nth i a z) (nth i b z)).
Notation vmul := (vop (fcmul F)).
Notation vdiv := (vop (fcdiv F)).
Notation vadd := (vop (cadd F)).
Notation vsub := (vop (csub F)).
Notation vconj := (map (cconj F)).
Lemma vop_length op n a b : length (vop op n a b) = n. Proof. apply tab_length. Qed.

Lemma zip_raw (op : C -> C -> C) n (a b o : list C) : length a = n -> length b = n -> length o = n ->
  zipw (fun x y => Ok (op x y)) n a b o = Ok (vop op n a b).
Proof. intros La Lb Lo. apply (zipw_ok (fun x y => Ok (op x y)) op n a b o z z); congruence || reflexivity. Qed.
Lemma add_to_raw lg (a b : list C) : length a = 2 ^ lg -> length b = 2 ^ lg -> cpoly_add_to F lg a b = Ok (vadd (2 ^ lg) a b).
Proof.
  intros La Lb. unfold cpoly_add_to. refine (fill_ok C z (2 ^ lg) _ a _ La _).
  intros i v Hi [L H]. rewrite (rd_Ok v i z) by lia. cbn [bind]. rewrite (rd_Ok b i z) by lia. cbn [bind]. rewrite wr_Ok by lia.
  rewrite H by exact Hi. destruct (Nat.ltb_spec i i); [lia|]. reflexivity.
Qed.
Lemma adj_raw lg (a : list C) : length a = 2 ^ lg -> adj_poly F lg a = Ok (vconj a).
Proof. intros La. apply mapw_ok. congruence. Qed.

(** ** LDL* *)
Definition vl10 n (g00 g10 : list C) : list C := vdiv n g10 g00.
Definition vd11 n (g00 g10 g11 : list C) : list C :=
  vsub n g11 (vmul n (vmul n (vl10 n g00 g10) (vconj (vl10 n g00 g10))) g00).
Lemma ldl_raw lg (G : list C) : 4 * 2 ^ lg <= length G ->
  ldl F lg G = Ok (vl10 (2 ^ lg) (slice G 0 (2 ^ lg)) (slice G (2 * 2 ^ lg) (2 ^ lg)), slice G 0 (2 ^ lg),
                   vd11 (2 ^ lg) (slice G 0 (2 ^ lg)) (slice G (2 * 2 ^ lg) (2 ^ lg)) (slice G (3 * 2 ^ lg) (2 ^ lg))).
Proof.
  intros L. unfold ldl. rewrite !rds_ok by lia. cbn [bind].
  assert (L0 : length (slice G 0 (2 ^ lg)) = 2 ^ lg) by (apply slice_length; lia).
  assert (L2 : length (slice G (2 * 2 ^ lg) (2 ^ lg)) = 2 ^ lg) by (apply slice_length; lia).
  assert (L3 : length (slice G (3 * 2 ^ lg) (2 ^ lg)) = 2 ^ lg) by (apply slice_length; lia).
  assert (Lf : length (fresh F (2 ^ lg)) = 2 ^ lg) by apply repeat_length.
  unfold cpoly_div. rewrite zip_raw by assumption. cbn [bind].
  rewrite adj_raw by apply vop_length. cbn [bind].
  unfold cpoly_mul. rewrite zip_raw by (assumption || apply vop_length || (rewrite map_length; apply vop_length)). cbn [bind].
  rewrite zip_raw by (assumption || apply vop_length || (rewrite map_length; apply vop_length)). cbn [bind].
  unfold cpoly_sub. rewrite zip_raw by (assumption || apply vop_length). reflexivity.
Qed.

(** ** split *)
Definition vspl0 (h : nat) (y : list C) : list C := tab (2 ^ h) (fun i => cscal F (cadd F (nth (2 * i) y z) (nth (2 * i + 1) y z)) (half F)).
Definition vspl1 (h : nat) (y : list C) : list C :=
  tab (2 ^ h) (fun i => fcmul F (cscal F (csub F (nth (2 * i) y z) (nth (2 * i + 1) y z)) (half F)) (cconj F (nth (2 ^ h + i) ztab z))).

Lemma half_pow2 h : 2 ^ S h / 2 = 2 ^ h.
Proof. change (2 ^ S h) with (2 * 2 ^ h). rewrite Nat.mul_comm. apply Nat.div_mul. lia. Qed.
Lemma fill2_raw n body (i0 i1 : list C) (f0 f1 : nat -> C) : length i0 = n -> length i1 = n ->
  (forall i v0 v1, i < n -> length v0 = n -> length v1 = n -> body i (v0, v1) = Ok (upd v0 i (f0 i), upd v1 i (f1 i))) ->
  forn n 0 body (i0, i1) = Ok (tab n f0, tab n f1).
Proof.
  intros L0 L1 H.
  destruct (forn_inv (fun i v => filled C z n i f0 (fun j => nth j i0 z) (fst v) /\ filled C z n i f1 (fun j => nth j i1 z) (snd v)) n 0 body (i0, i1)) as [v [E [P0 P1]]].
  - split; apply filled_start; assumption.
  - intros j [t0 t1] Hj [H0 H1]. cbn [fst snd] in H0, H1. exists (upd t0 j (f0 j), upd t1 j (f1 j)).
    split; [|split; apply filled_step; assumption || lia]. apply H; [lia|apply H0|apply H1].
  - cbn [Nat.add] in P0, P1. apply filled_end in P0, P1. etransitivity; [exact E|]. destruct v as [v0 v1]; cbn [fst snd] in *. subst. reflexivity.
Qed.
Lemma vsplit_raw h (y o0 o1 : list C) : 2 ^ S h <= length ztab -> length y = 2 ^ S h -> length o0 = 2 ^ h -> length o1 = 2 ^ h ->
  split_fft F ztab (S h) y o0 o1 = Ok (vspl0 h y, vspl1 h y).
Proof.
  intros Lz Ly L0 L1. unfold split_fft. rewrite half_pow2. refine (fill2_raw (2 ^ h) _ o0 o1 _ _ L0 L1 _).
  assert (EE : 2 ^ S h = 2 ^ h + 2 ^ h) by (simpl; lia).
  intros i v0 v1 Hi M0 M1. rewrite (rd_Ok ztab (2 ^ h + i) z) by lia. cbn [bind].
  rewrite (rd_Ok y (2 * i) z) by lia. cbn [bind]. rewrite (rd_Ok y (2 * i + 1) z) by lia. cbn [bind].
  rewrite wr_Ok by lia. cbn [bind]. rewrite wr_Ok by lia. reflexivity.
Qed.

(** ** the tree as a mathematical object and its layout *)
Inductive tree : Type := Leaf (x : C) | Node (l : list C) (a b : tree).

Fixpoint ltree (h : nat) (g00 g10 g11 : list C) : tree :=
  match h with
  | O => Leaf z
  | S h' =>
    let l := vl10 (2 ^ h) g00 g10 in
    let d := vd11 (2 ^ h) g00 g10 g11 in
    match h' with
    | O => Node l (Leaf (nth 0 g00 z)) (Leaf (nth 0 d z))
    | S _ => Node l (ltree h' (vspl0 h' g00) (vconj (vspl1 h' g00)) (vconj (vspl0 h' g00)))
                    (ltree h' (vspl0 h' d) (vconj (vspl1 h' d)) (vconj (vspl0 h' d)))
    end
  end.

(** W: number of cells of one level (2^height of the whole tree) *)
Fixpoint stored (W h : nat) (T : list C) (off : nat) (t : tree) : Prop :=
  match t, h with
  | Leaf x, O => nth off T z = x
  | Node l a b, S h' => length l = 2 ^ h /\ (forall i, i < 2 ^ h -> nth (off + i) T z = nth i l z) /\
      stored W h' T (off + W) a /\ stored W h' T (off + W + 2 ^ h') b
  | _, _ => False
  end.
Definition region (W h off k : nat) : Prop := exists l, l <= h /\ off + l * W <= k < off + l * W + 2 ^ h.
Definition leaf_region (W h off k : nat) : Prop := off + h * W <= k < off + h * W + 2 ^ h.

Lemma stored_frame W : forall h T T' off t, (forall k, region W h off k -> nth k T' z = nth k T z) -> stored W h T off t -> stored W h T' off t.
Proof.
  induction h as [|h IH]; intros T T' off t H HS; destruct t as [x|l a b]; cbn [stored] in *; try contradiction.
  - rewrite H; [exact HS|]. exists 0. simpl. lia.
  - destruct HS as [L [Sn [Sa Sb]]]. split; [exact L|]. split.
    + intros i Hi. rewrite H; [apply Sn; exact Hi|]. exists 0. split; lia.
    + split; eapply IH; try eassumption; intros k [l' [Hl Hk]]; apply H; exists (S l'); change (2 ^ S h) with (2 ^ h + (2 ^ h + 0)); split; lia.
Qed.

Lemma region_disj W h off k : 2 ^ S h <= W -> region W h (off + W) k -> region W h (off + W + 2 ^ h) k -> False.
Proof.
  change (2 ^ S h) with (2 ^ h + (2 ^ h + 0)). intros HW [l [Hl H]] [l' [Hl' H']].
  destruct (Nat.lt_trichotomy l l') as [E|[E|E]].
  - assert (l * W + W <= l' * W) by nia. lia.
  - subst. lia.
  - assert (l' * W + W <= l * W) by nia. lia.
Qed.
Lemma region_node_disj W h off k : 2 ^ S h <= W -> off <= k < off + 2 ^ S h -> region W h (off + W) k \/ region W h (off + W + 2 ^ h) k -> False.
Proof. intros HW H [[l [Hl K]]|[l [Hl K]]]; assert (0 <= l * W) by lia; nia. Qed.
Lemma region_sub W h off k : region W h (off + W) k \/ region W h (off + W + 2 ^ h) k -> region W (S h) off k.
Proof. intros [[l [Hl K]]|[l [Hl K]]]; exists (S l); change (2 ^ S h) with (2 ^ h + (2 ^ h + 0)); lia. Qed.
Lemma region_node W h off k : off <= k < off + 2 ^ h -> region W h off k.
Proof. intros H. exists 0. lia. Qed.
Lemma region_bound W h off k : region W h off k -> k < off + h * W + 2 ^ h.
Proof. intros [l [Hl K]]. assert (l * W <= h * W) by nia. lia. Qed.

Lemma child_gram_raw h (a b : list C) : length a = 2 ^ h -> length b = 2 ^ h ->
  child_gram F (S h) a b = Ok (a ++ b ++ vconj b ++ vconj a).
Proof.
  intros La Lb. unfold child_gram. rewrite half_pow2. set (n := 2 ^ h) in *. assert (EE : 2 ^ S h = n + n) by (unfold n; simpl; lia). rewrite EE.
  assert (E1 : fresh F (n * 2 * 2) = repeat z n ++ repeat z n ++ repeat z n ++ repeat z n).
  { unfold fresh. rewrite <- !repeat_app. f_equal. lia. }
  rewrite E1. set (r := repeat z n). assert (Lr : length r = n) by apply repeat_length.
  assert (W0 := wrs_app a [] r (r ++ r ++ r)). cbn [app length] in W0. rewrite W0 by congruence. cbn [bind].
  assert (W1 := wrs_app b a r (r ++ r)). rewrite La in W1. rewrite W1 by congruence. cbn [bind].
  assert (W2 := wrs_app b (a ++ b) r r). rewrite app_length, La, Lb, <- !app_assoc in W2. rewrite W2 by congruence. cbn [bind].
  assert (W3 := wrs_app a (a ++ b ++ b) r []). rewrite !app_length, La, Lb, <- !app_assoc, !app_nil_r in W3.
  replace (n + n + n) with (n + (n + n)) by lia. rewrite W3 by congruence. cbn [bind].
  unfold at_sub. rewrite rds_ok by (rewrite !app_length; lia). cbn [bind].
  assert (S1 := slice_app2 (a ++ b) (b ++ a) 0 (n + n)). rewrite app_length, La, Lb, Nat.add_0_r, <- app_assoc in S1. rewrite S1.
  rewrite slice_all by (rewrite app_length; lia). rewrite adj_raw by (rewrite app_length; lia). cbn [bind].
  assert (W4 := wrs_app (vconj (b ++ a)) (a ++ b) (b ++ a) []).
  rewrite !app_length, La, Lb, !app_nil_r, <- !app_assoc in W4. rewrite W4 by (rewrite map_length, app_length; lia). rewrite map_app. reflexivity.
Qed.

Lemma slices4 (a b c d : list C) n : length a = n -> length b = n -> length c = n -> length d = n ->
  slice (a ++ b ++ c ++ d) 0 n = a /\ slice (a ++ b ++ c ++ d) (2 * n) n = c /\ slice (a ++ b ++ c ++ d) (3 * n) n = d /\ slice (a ++ b ++ c ++ d) n n = b.
Proof.
  intros La Lb Lc Ld. repeat split.
  - rewrite slice_app1 by lia. apply slice_all; exact La.
  - assert (S1 := slice_app2 (a ++ b) (c ++ d) 0 n). rewrite app_length, La, Lb, Nat.add_0_r, <- app_assoc in S1.
    replace (2 * n) with (n + n) by lia. rewrite S1. rewrite slice_app1 by lia. apply slice_all; exact Lc.
  - assert (S1 := slice_app2 (a ++ b ++ c) d 0 n). rewrite !app_length, La, Lb, Lc, Nat.add_0_r, <- !app_assoc in S1.
    replace (3 * n) with (n + (n + n)) by lia. rewrite S1. apply slice_all; exact Ld.
  - assert (S1 := slice_app2 a (b ++ c ++ d) 0 n). rewrite La, Nat.add_0_r in S1. rewrite S1. rewrite slice_app1 by lia. apply slice_all; exact Lb.
Qed.

(** ** ffldl *)
Lemma ffldl_ok W : forall h lvl G T off, 1 <= h -> W = 2 ^ (lvl + h) -> 2 ^ h <= length ztab -> length G = 4 * 2 ^ h ->
  off + h * W + 2 ^ h <= length T ->
  exists T', ffldl F ztab h lvl G T off = Ok T' /\ length T' = length T /\
    (forall k, ~ region W h off k -> nth k T' z = nth k T z) /\
    stored W h T' off (ltree h (slice G 0 (2 ^ h)) (slice G (2 * 2 ^ h) (2 ^ h)) (slice G (3 * 2 ^ h) (2 ^ h))).
Proof.
  induction h as [|h IH]; intros lvl G T off H1 HW Lz LG LT; [lia|].
  assert (HP : 2 ^ lvl * 2 ^ S h = W) by (rewrite HW, Nat.pow_add_r; reflexivity).
  assert (HWge : 2 ^ S h <= W) by (rewrite HW; apply Nat.pow_le_mono_r; lia).
  assert (EE : 2 ^ S h = 2 ^ h + 2 ^ h) by (simpl; lia). assert (P := pow2_pos h).
  set (g00 := slice G 0 (2 ^ S h)). set (g10 := slice G (2 * 2 ^ S h) (2 ^ S h)). set (g11 := slice G (3 * 2 ^ S h) (2 ^ S h)).
  assert (L00 : length g00 = 2 ^ S h) by (apply slice_length; lia).
  set (l := vl10 (2 ^ S h) g00 g10). set (d := vd11 (2 ^ S h) g00 g10 g11).
  assert (Ll : length l = 2 ^ S h) by apply vop_length. assert (Ld : length d = 2 ^ S h) by apply vop_length.
  cbn [ffldl]. rewrite HP. rewrite ldl_raw by lia. fold g00 g10 g11 l d. cbn [bind].
  destruct (nth_wrs z T off l) as [T1 [E1 [LT1 N1]]]; [rewrite Ll; lia|]. rewrite E1. cbn [bind]. rewrite Ll in N1.
  destruct h as [|h'].
  - change (2 ^ 1) with 2 in *. change (2 ^ 0) with 1 in *. change (2 / 2) with 1.
    rewrite rds_ok by lia. cbn [bind].
    assert (La : length (slice g00 0 1) = 1) by (apply slice_length; lia).
    assert (Lb : length (slice d 0 1) = 1) by (apply slice_length; lia).
    destruct (nth_wrs z T1 (off + W) (slice g00 0 1)) as [T2 [E2 [LT2 N2]]]; [rewrite La; lia|]. rewrite E2. cbn [bind]. rewrite La in N2.
    rewrite rds_ok by lia. cbn [bind].
    destruct (nth_wrs z T2 (off + W + 1) (slice d 0 1)) as [T3 [E3 [LT3 N3]]]; [rewrite Lb; lia|]. rewrite Lb in N3.
    exists T3. split; [exact E3|]. split; [lia|]. split.
    + intros k Hk. rewrite N3, N2, N1.
      assert (K0 : ~ (off <= k < off + 2)) by (intros K; apply Hk; exists 0; lia).
      assert (K1 : ~ (off + W <= k < off + W + 2)) by (intros K; apply Hk; exists 1; simpl; lia).
      destruct (Nat.leb_spec (off + W + 1) k), (Nat.ltb_spec k (off + W + 1 + 1)); simpl; try lia;
      destruct (Nat.leb_spec (off + W) k), (Nat.ltb_spec k (off + W + 1)); simpl; try lia;
      destruct (Nat.leb_spec off k), (Nat.ltb_spec k (off + 2)); simpl; try lia; reflexivity.
    + cbn [ltree stored]. change (2 ^ 1) with 2. change (2 ^ 0) with 1. fold l d.
      split; [exact Ll|]. split; [|split].
      * intros i Hi. rewrite N3, N2, N1.
        destruct (Nat.leb_spec (off + W + 1) (off + i)); simpl; try lia.
        destruct (Nat.leb_spec (off + W) (off + i)); simpl; try lia.
        destruct (Nat.leb_spec off (off + i)), (Nat.ltb_spec (off + i) (off + 2)); cbn [andb]; try lia. replace (off + i - off) with i by lia. reflexivity.
      * rewrite N3, N2. destruct (Nat.leb_spec (off + W + 1) (off + W)); simpl; try lia.
        destruct (Nat.leb_spec (off + W) (off + W)), (Nat.ltb_spec (off + W) (off + W + 1)); cbn [andb]; try lia.
        rewrite nth_slice by lia. rewrite Nat.sub_diag. reflexivity.
      * rewrite N3. destruct (Nat.leb_spec (off + W + 1) (off + W + 1)), (Nat.ltb_spec (off + W + 1) (off + W + 1 + 1)); cbn [andb]; try lia.
        rewrite nth_slice by lia. rewrite Nat.sub_diag. reflexivity.
  - set (h := S h') in *. rewrite half_pow2.
    assert (Lf : length (fresh F (2 ^ h)) = 2 ^ h) by apply repeat_length.
    rewrite vsplit_raw by (assumption || lia). cbn [bind]. rewrite vsplit_raw by (assumption || lia). cbn [bind].
    set (x0 := vspl0 h g00). set (x1 := vspl1 h g00). set (y0 := vspl0 h d). set (y1 := vspl1 h d).
    assert (Lx0 : length x0 = 2 ^ h) by apply tab_length. assert (Lx1 : length x1 = 2 ^ h) by apply tab_length.
    assert (Ly0 : length y0 = 2 ^ h) by apply tab_length. assert (Ly1 : length y1 = 2 ^ h) by apply tab_length.
    rewrite !child_gram_raw by assumption. cbn [bind].
    assert (Lcx0 : length (vconj x0) = 2 ^ h) by (rewrite map_length; exact Lx0). assert (Lcx1 : length (vconj x1) = 2 ^ h) by (rewrite map_length; exact Lx1).
    assert (Lcy0 : length (vconj y0) = 2 ^ h) by (rewrite map_length; exact Ly0). assert (Lcy1 : length (vconj y1) = 2 ^ h) by (rewrite map_length; exact Ly1).
    destruct (slices4 x0 x1 (vconj x1) (vconj x0) (2 ^ h)) as [Q0 [Q2 [Q3 _]]]; try assumption.
    destruct (slices4 y0 y1 (vconj y1) (vconj y0) (2 ^ h)) as [R0 [R2 [R3 _]]]; try assumption.
    destruct (IH (S lvl) (x0 ++ x1 ++ vconj x1 ++ vconj x0) T1 (off + W)) as [T2 [E2 [LT2 [O2 S2]]]];
      [lia|rewrite HW; f_equal; lia|lia|rewrite !app_length; lia|rewrite LT1; simpl in LT |- *; lia|].
    rewrite E2. cbn [bind]. rewrite Q0, Q2, Q3 in S2.
    destruct (IH (S lvl) (y0 ++ y1 ++ vconj y1 ++ vconj y0) T2 (off + W + 2 ^ h)) as [T3 [E3 [LT3 [O3 S3]]]];
      [lia|rewrite HW; f_equal; lia|lia|rewrite !app_length; lia|rewrite LT2, LT1; simpl in LT |- *; lia|].
    rewrite R0, R2, R3 in S3.
    exists T3. split; [exact E3|]. split; [lia|]. split.
    + intros k Hk. rewrite O3 by (intros K; apply Hk; apply region_sub; right; exact K).
      rewrite O2 by (intros K; apply Hk; apply region_sub; left; exact K). rewrite N1.
      assert (K0 : ~ (off <= k < off + 2 ^ S h)) by (intros K; apply Hk; apply region_node; exact K).
      destruct (Nat.leb_spec off k), (Nat.ltb_spec k (off + 2 ^ S h)); simpl; try lia; reflexivity.
    + change (ltree (S h) g00 g10 g11) with (Node l (ltree h x0 (vconj x1) (vconj x0)) (ltree h y0 (vconj y1) (vconj y0))).
      cbn [stored]. split; [exact Ll|]. split; [|split].
      * intros i Hi. assert (KD := region_node_disj W h off (off + i) HWge). rewrite O3 by (intros K; apply KD; [lia|right; exact K]).
        rewrite O2 by (intros K; apply KD; [lia|left; exact K]). rewrite N1.
        destruct (Nat.leb_spec off (off + i)), (Nat.ltb_spec (off + i) (off + 2 ^ S h)); cbn [andb]; try lia. replace (off + i - off) with i by lia. reflexivity.
      * eapply stored_frame; [|exact S2]. intros k Hk. apply O3. intros K. apply (region_disj W h off k HWge Hk K).
      * exact S3.
Qed.

(** the leaves, left to right, are the cells of the last level *)
Fixpoint leaves (t : tree) : list C := match t with Leaf x => [x] | Node l a b => leaves a ++ leaves b end.
Lemma stored_leaves W : forall h T off t, stored W h T off t -> length (leaves t) = 2 ^ h /\
  forall j, j < 2 ^ h -> nth (off + h * W + j) T z = nth j (leaves t) z.
Proof.
  induction h as [|h IH]; intros T off t H; destruct t as [x|l a b]; cbn [stored] in H; try contradiction.
  - split; [reflexivity|]. intros j Hj. simpl in Hj. assert (j = 0) by lia. subst j. simpl. rewrite !Nat.add_0_r. exact H.
  - destruct H as [_ [_ [Ha Hb]]]. destruct (IH _ _ _ Ha) as [La Na]. destruct (IH _ _ _ Hb) as [Lb Nb]. cbn [leaves].
    change (2 ^ S h) with (2 ^ h + (2 ^ h + 0)). split; [rewrite app_length; lia|]. intros j Hj.
    destruct (Nat.lt_ge_cases j (2 ^ h)) as [K|K].
    + rewrite app_nth1 by lia. rewrite <- Na by exact K. f_equal. simpl. lia.
    + rewrite app_nth2 by lia. rewrite La. rewrite <- Nb by lia. f_equal. simpl. lia.
Qed.

(** ** normalize_tree *)
Definition nleaf (sigma : D F) (x : C) : C := cof F (fdiv F sigma (fsqrt F (fst x))).
Fixpoint ntree (sigma : D F) (t : tree) : tree :=
  match t with Leaf x => Leaf (nleaf sigma x) | Node l a b => Node l (ntree sigma a) (ntree sigma b) end.

Lemma ntree_leaves sigma t : leaves (ntree sigma t) = map (nleaf sigma) (leaves t).
Proof. induction t as [x|l a IHa b IHb]; cbn [ntree leaves map]; [reflexivity|]. rewrite IHa, IHb, map_app. reflexivity. Qed.
Lemma leaf_in W h off k : leaf_region W h off k -> region W h off k.
Proof. intros H. exists h. split; [lia|exact H]. Qed.
Lemma leaf_sub W h off k : leaf_region W h (off + W) k \/ leaf_region W h (off + W + 2 ^ h) k -> leaf_region W (S h) off k.
Proof. unfold leaf_region. change (2 ^ S h) with (2 ^ h + (2 ^ h + 0)). simpl. lia. Qed.
Lemma norm_leaf_raw sigma T i : i < length T -> norm_leaf F sigma T i = Ok (upd T i (nleaf sigma (nth i T z))).
Proof. intros H. unfold norm_leaf. rewrite (rd_Ok T i z) by exact H. cbn [bind]. rewrite wr_Ok by exact H. reflexivity. Qed.

Lemma normalize_ok W sigma : forall h lvl T off t, 1 <= h -> W = 2 ^ (lvl + h) -> off + h * W + 2 ^ h <= length T -> stored W h T off t ->
  exists T', normalize_tree F h lvl T off sigma = Ok T' /\ length T' = length T /\
    (forall k, ~ leaf_region W h off k -> nth k T' z = nth k T z) /\ stored W h T' off (ntree sigma t).
Proof.
  induction h as [|h IH]; intros lvl T off t H1 HW LT St; [lia|].
  assert (HP : 2 ^ lvl * 2 ^ S h = W) by (rewrite HW, Nat.pow_add_r; reflexivity).
  assert (HWge : 2 ^ S h <= W) by (rewrite HW; apply Nat.pow_le_mono_r; lia).
  assert (EE : 2 ^ S h = 2 ^ h + 2 ^ h) by (simpl; lia). assert (P := pow2_pos h).
  destruct t as [x|l a b]; [contradiction|]. cbn [stored] in St. destruct St as [Ll [Sl [Sa Sb]]].
  cbn [normalize_tree]. rewrite HP, half_pow2.
  destruct h as [|h'].
  - destruct a as [x|]; [|contradiction]. destruct b as [y|]; [|contradiction]. cbn [stored] in Sa, Sb. change (2 ^ 0) with 1 in *. change (2 ^ 1) with 2 in *.
    rewrite norm_leaf_raw by lia. cbn [bind]. rewrite norm_leaf_raw by (rewrite upd_length; lia). eexists. split; [reflexivity|].
    split; [rewrite !upd_length; reflexivity|]. split.
    + intros k Hk. unfold leaf_region in Hk. rewrite !nth_upd by (rewrite ?upd_length; lia).
      destruct (Nat.eqb_spec k (off + W + 1)); [exfalso; apply Hk; simpl; lia|]. destruct (Nat.eqb_spec k (off + W)); [exfalso; apply Hk; simpl; lia|]. reflexivity.
    + cbn [ntree stored]. split; [exact Ll|]. change (2 ^ 1) with 2. change (2 ^ 0) with 1. split; [|split].
      * intros i Hi. rewrite !nth_upd by (rewrite ?upd_length; lia).
        destruct (Nat.eqb_spec (off + i) (off + W + 1)); [lia|]. destruct (Nat.eqb_spec (off + i) (off + W)); [lia|]. apply Sl; exact Hi.
      * rewrite !nth_upd by (rewrite ?upd_length; lia). destruct (Nat.eqb_spec (off + W) (off + W + 1)); [lia|]. rewrite Nat.eqb_refl, Sa. reflexivity.
      * rewrite !nth_upd by (rewrite ?upd_length; lia). rewrite Nat.eqb_refl. destruct (Nat.eqb_spec (off + W + 1) (off + W)); [lia|]. rewrite Sb. reflexivity.
  - set (h := S h') in *.
    destruct (IH (S lvl) T (off + W) a) as [T2 [E2 [LT2 [O2 S2]]]]; [lia|rewrite HW; f_equal; lia|simpl in LT |- *; lia|exact Sa|].
    rewrite E2. cbn [bind].
    destruct (IH (S lvl) T2 (off + W + 2 ^ h) b) as [T3 [E3 [LT3 [O3 S3]]]]; [lia|rewrite HW; f_equal; lia|rewrite LT2; simpl in LT |- *; lia| |].
    { eapply stored_frame; [|exact Sb]. intros k Hk. apply O2. intros K. apply (region_disj W h off k HWge (leaf_in _ _ _ _ K) Hk). }
    exists T3. split; [exact E3|]. split; [lia|]. split.
    + intros k Hk. rewrite O3 by (intros K; apply Hk; apply leaf_sub; right; exact K).
      apply O2. intros K; apply Hk; apply leaf_sub; left; exact K.
    + cbn [ntree stored]. split; [exact Ll|]. split; [|split].
      * intros i Hi. assert (KD := region_node_disj W h off (off + i) HWge). rewrite O3 by (intros K; apply KD; [lia|right; apply leaf_in; exact K]).
        rewrite O2 by (intros K; apply KD; [lia|left; apply leaf_in; exact K]). apply Sl; exact Hi.
      * eapply stored_frame; [|exact S2]. intros k Hk. apply O3. intros K. apply (region_disj W h off k HWge Hk (leaf_in _ _ _ _ K)).
      * exact S3.
Qed.

(** ** Gram matrix *)
Section Blocks4.
Variables (n : nat) (a b c d : list C).
Hypotheses (La : length a = n) (Lb : length b = n) (Lc : length c = n) (Ld : length d = n).
Lemma rds4_0 : rds (a ++ b ++ c ++ d) 0 n = Ok a.
Proof. rewrite rds_ok by (rewrite !app_length; lia). f_equal. apply (slices4 a b c d n); assumption. Qed.
Lemma rds4_1 : rds (a ++ b ++ c ++ d) n n = Ok b.
Proof. rewrite rds_ok by (rewrite !app_length; lia). f_equal. apply (slices4 a b c d n); assumption. Qed.
Lemma rds4_2 : rds (a ++ b ++ c ++ d) (2 * n) n = Ok c.
Proof. rewrite rds_ok by (rewrite !app_length; lia). f_equal. apply (slices4 a b c d n); assumption. Qed.
Lemma rds4_3 : rds (a ++ b ++ c ++ d) (3 * n) n = Ok d.
Proof. rewrite rds_ok by (rewrite !app_length; lia). f_equal. apply (slices4 a b c d n); assumption. Qed.
Variable x : list C.
Hypothesis Lx : length x = n.
Lemma wrs4_0 : wrs (a ++ b ++ c ++ d) 0 x = Ok (x ++ b ++ c ++ d).
Proof. apply (wrs_app x [] a (b ++ c ++ d)). congruence. Qed.
Lemma wrs4_1 : wrs (a ++ b ++ c ++ d) n x = Ok (a ++ x ++ c ++ d).
Proof. rewrite <- La. apply (wrs_app x a b (c ++ d)). congruence. Qed.
Lemma wrs4_2 : wrs (a ++ b ++ c ++ d) (2 * n) x = Ok (a ++ b ++ x ++ d).
Proof.
  assert (W := wrs_app x (a ++ b) c d). rewrite app_length, La, Lb, <- !app_assoc in W.
  replace (2 * n) with (n + n) by lia. apply W. congruence.
Qed.
Lemma wrs4_3 : wrs (a ++ b ++ c ++ d) (3 * n) x = Ok (a ++ b ++ c ++ x).
Proof.
  assert (W := wrs_app x (a ++ b ++ c) d []). rewrite !app_length, La, Lb, Lc, <- !app_assoc, !app_nil_r in W.
  replace (3 * n) with (n + (n + n)) by lia. apply W. congruence.
Qed.
End Blocks4.

Definition vgram (n : nat) (a b c d : list C) : list C := vadd n (vmul n a (vconj c)) (vmul n b (vconj d)).
Lemma vgram_length n a b c d : length (vgram n a b c d) = n. Proof. apply vop_length. Qed.

Lemma gram_raw lg (b0 b1 b2 b3 G : list C) : length b0 = 2 ^ lg -> length b1 = 2 ^ lg -> length b2 = 2 ^ lg -> length b3 = 2 ^ lg ->
  length G = 4 * 2 ^ lg ->
  compute_gram_matrix F lg (b0 ++ b1 ++ b2 ++ b3) G = Ok (vgram (2 ^ lg) b0 b1 b0 b1 ++ vgram (2 ^ lg) b0 b1 b2 b3 ++ vgram (2 ^ lg) b2 b3 b0 b1 ++ vgram (2 ^ lg) b2 b3 b2 b3).
Proof.
  intros L0 L1 L2 L3 LG. unfold compute_gram_matrix. set (n := 2 ^ lg) in *.
  assert (EG : G = slice G 0 n ++ slice G n n ++ slice G (2 * n) n ++ slice G (3 * n) n).
  { rewrite <- (slice_all G (n + (n + (n + n)))) at 1 by lia. rewrite !slice_cat. cbn [Nat.add]. replace (n + n) with (2 * n) by lia. replace (2 * n + n) with (3 * n) by lia. reflexivity. }
  assert (M0 : length (slice G 0 n) = n) by (apply slice_length; lia). assert (M1 : length (slice G n n) = n) by (apply slice_length; lia).
  assert (M2 : length (slice G (2 * n) n) = n) by (apply slice_length; lia). assert (M3 : length (slice G (3 * n) n) = n) by (apply slice_length; lia).
  rewrite EG. clear EG. set (g0 := slice G 0 n) in *. set (g1 := slice G n n) in *. set (g2 := slice G (2 * n) n) in *. set (g3 := slice G (3 * n) n) in *.
  clearbody g0 g1 g2 g3. clear G LG.
  rewrite rds_ok by (rewrite !app_length; lia). rewrite slice_all by (rewrite !app_length; lia). cbn [bind]. unfold at_sub.
  assert (K0 : length (vconj b0) = n) by (rewrite map_length; exact L0). assert (K1 : length (vconj b1) = n) by (rewrite map_length; exact L1).
  assert (K2 : length (vconj b2) = n) by (rewrite map_length; exact L2). assert (K3 : length (vconj b3) = n) by (rewrite map_length; exact L3).
  rewrite rds4_0 by assumption. cbn [bind]. rewrite adj_raw by exact L0. cbn [bind]. rewrite (wrs4_0 n) by assumption. cbn [bind].
  rewrite rds4_1 by assumption. cbn [bind]. rewrite adj_raw by exact L1. cbn [bind]. rewrite (wrs4_1 n) by assumption. cbn [bind].
  rewrite rds4_2 by assumption. cbn [bind]. rewrite adj_raw by exact L2. cbn [bind]. rewrite (wrs4_2 n) by assumption. cbn [bind].
  rewrite rds4_3 by assumption. cbn [bind]. rewrite adj_raw by exact L3. cbn [bind]. rewrite (wrs4_3 n) by assumption. cbn [bind].
  assert (LM : forall x y, length (vmul n x y) = n) by (intros; apply vop_length).
  assert (LA : forall x y, length (vadd n x y) = n) by (intros; apply vop_length).
  assert (Lf : length (fresh F n) = n) by apply repeat_length.
  assert (RD0 : forall x : list C, length x = n -> rds x 0 n = Ok x).
  { intros x Hx. rewrite rds_ok by lia. rewrite slice_all by exact Hx. reflexivity. }
  assert (ML : forall x y o, length x = n -> length y = n -> length o = n -> cpoly_mul F lg x y o = Ok (vmul n x y)) by (intros; apply zip_raw; assumption).
  assert (AT : forall x y, length x = n -> length y = n -> cpoly_add_to F lg x y = Ok (vadd n x y)) by (intros; apply add_to_raw; assumption).
  assert (WA : forall x y : list C, length x = n -> length y = n -> wrs x 0 y = Ok y) by (intros; apply wrs_all; congruence).
  unfold mul_at. fold n.
  repeat (first
    [ rewrite !(rds4_0 n) by (assumption || apply LM || apply LA)
    | rewrite !(rds4_1 n) by (assumption || apply LM || apply LA)
    | rewrite !(rds4_2 n) by (assumption || apply LM || apply LA)
    | rewrite !(rds4_3 n) by (assumption || apply LM || apply LA)
    | rewrite RD0 by (assumption || apply LM || apply LA)
    | rewrite ML by (assumption || apply LM || apply LA)
    | rewrite AT by (assumption || apply LM || apply LA)
    | rewrite WA by (assumption || apply LM || apply LA)
    | rewrite (wrs4_0 n) by (assumption || apply LM || apply LA)
    | rewrite (wrs4_1 n) by (assumption || apply LM || apply LA)
    | rewrite (wrs4_2 n) by (assumption || apply LM || apply LA)
    | rewrite (wrs4_3 n) by (assumption || apply LM || apply LA) ]; cbn [bind]).
  reflexivity.
Qed.
End Gen.
