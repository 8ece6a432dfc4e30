(** P_ntru.v -- proofs about M_ntru.v: Karatsuba, field norm, xgcd, reduce, ntru_solve. *)
From Verif Require Import Base Ring Poly Spec M_ff M_xform P_xform M_ntt P_ntt M_codec P_codec M_float M_samp M_fft M_ntru.
From Coq Require Import Ring_theory Ring.
Open Scope nat_scope.

(** ** Filling loops *)
Section Fill.
Variable A : Type.
Variable d : A.
(** v is an array of n cells, the first i of which hold f, the others [old] *)
Definition filled (n i : nat) (f old : nat -> A) (v : list A) : Prop :=
  length v = n /\ forall j, j < n -> nth j v d = if j <? i then f j else old j.

Lemma filled_start n f v : length v = n -> filled n 0 f (fun j => nth j v d) v.
Proof. intros H; split; [exact H|]. intros j Hj. reflexivity. Qed.
Lemma filled_step n i f old v : i < n -> filled n i f old v -> filled n (S i) f old (upd v i (f i)).
Proof.
  intros Hi [L H]. split; [rewrite upd_length; exact L|]. intros j Hj. rewrite nth_upd by lia. rewrite H by exact Hj.
  destruct (Nat.eqb_spec j i), (Nat.ltb_spec j i), (Nat.ltb_spec j (S i)); subst; try lia; reflexivity.
Qed.
Lemma filled_end n f old v : filled n n f old v -> v = tab n f.
Proof.
  intros [L H]. apply (list_ext d); [rewrite tab_length; exact L|]. rewrite L. intros i Hi.
  rewrite nth_tab, H by exact Hi. destruct (Nat.ltb_spec i n); [reflexivity|lia].
Qed.
Lemma filled_old n i f old v : i < n -> filled n i f old v -> nth i v d = old i.
Proof. intros Hi [L H]. rewrite H by exact Hi. destruct (Nat.ltb_spec i i); [lia|reflexivity]. Qed.
Lemma filled_wr n i f old v : i < n -> filled n i f old v ->
  wr v i (f i) = Ok (upd v i (f i)) /\ filled n (S i) f old (upd v i (f i)).
Proof. intros Hi H. split; [apply wr_Ok; destruct H; lia|apply filled_step; auto]. Qed.
Lemma filled_rd n i f old v : i < n -> filled n i f old v -> rd v i = Ok (old i).
Proof. intros Hi H. rewrite (rd_Ok _ _ d) by (destruct H; lia). rewrite (filled_old _ _ _ _ _ Hi H). reflexivity. Qed.

(** a loop writing cell i in iteration i *)
Lemma fill_ok n body init (f : nat -> A) : length init = n ->
  (forall i v, i < n -> filled n i f (fun j => nth j init d) v -> body i v = Ok (upd v i (f i))) ->
  forn n 0 body init = Ok (tab n f).
Proof.
  intros L H.
  destruct (forn_inv (fun i v => filled n i f (fun j => nth j init d) v) n 0 body init) as [v [E P]].
  - apply filled_start; exact L.
  - intros j t Hj Ht. exists (upd t j (f j)). split; [apply H; [lia|exact Ht]|apply filled_step; [lia|exact Ht]].
  - simpl in P. apply filled_end in P. rewrite E, P. reflexivity.
Qed.
End Fill.

Lemma nth_repeat0 {A} (x d : A) n i : i < n -> nth i (repeat x n) d = x.
Proof.
  revert i; induction n as [|n IH]; intros [|i] H; simpl; try lia; auto. apply IH; lia.
Qed.

(** ** Z[x]/(x^n+1) as a ring *)
Notation zpv := (pv Z).
Lemma Zth' : ring_theory 0%Z 1%Z Z.add Z.mul Z.sub Z.opp eq.
Proof. exact Zth. Qed.
Notation zadd := (Poly.padd Z 0%Z Z.add).
Notation zsub := (Poly.psub Z 0%Z Z.sub).
Notation zmul := (pmul Z 0%Z Z.add Z.mul Z.opp).
Notation zc := (pc Z 0%Z).
Notation zof := (ofl Z 0%Z).
Notation zmk := (mkp Z).
Notation zpl := (pl Z _).

Lemma zsum_rsum n f : zsum n f = rsum Z 0%Z Z.add n f.
Proof. induction n as [|n IH]; simpl; [reflexivity|rewrite IH; reflexivity]. Qed.

Lemma negacyclic_zmul n a b : negacyclic n a b = zpl (zmul (zof n a) (zof n b)).
Proof.
  apply (list_ext 0%Z); [rewrite negacyclic_length, pl_length; reflexivity|]. rewrite negacyclic_length. intros k Hk.
  unfold negacyclic. rewrite nth_tab by exact Hk. rewrite zsum_rsum.
  unfold Poly.pmul. simpl. rewrite nth_tab by exact Hk.
  unfold nconv. apply rsum_ext. intros i Hi. rewrite pc_ofl by exact Hi. f_equal. unfold sh.
  destruct (Nat.leb_spec i k); rewrite pc_ofl by lia; reflexivity.
Qed.

(** ** Karatsuba *)
Definition pcd (n : nat) (a b : nat -> Z) (k : nat) : Z :=
  zsum n (fun i => zsum n (fun j => if (i + j =? k)%nat then a i * b j else 0)%Z).

Lemma zsum_ext n f g : (forall i, i < n -> f i = g i) -> zsum n f = zsum n g.
Proof. rewrite !zsum_rsum. apply rsum_ext. Qed.
Lemma zsum_split n m f : zsum (n + m) f = (zsum n f + zsum m (fun i => f (n + i)%nat))%Z.
Proof. rewrite !zsum_rsum. apply (rsum_split _ _ _ _ _ _ _ Zth'). Qed.
Lemma zsum_add n f g : zsum n (fun i => f i + g i)%Z = (zsum n f + zsum n g)%Z.
Proof. rewrite !zsum_rsum. apply (rsum_add _ _ _ _ _ _ _ Zth'). Qed.
Lemma zsum_zero n f : (forall i, i < n -> f i = 0%Z) -> zsum n f = 0%Z.
Proof. rewrite !zsum_rsum. apply (rsum_zero _ _ _ _ _ _ _ Zth'). Qed.
Lemma zsum_single n f k : k < n -> (forall i, i < n -> i <> k -> f i = 0%Z) -> zsum n f = f k.
Proof. rewrite !zsum_rsum. apply (rsum_single _ _ _ _ _ _ _ Zth'). Qed.

Lemma pcd_ext n a a' b b' k : (forall i, i < n -> a i = a' i) -> (forall i, i < n -> b i = b' i) ->
  pcd n a b k = pcd n a' b' k.
Proof. intros Ha Hb. apply zsum_ext; intros i Hi. apply zsum_ext; intros j Hj. rewrite Ha, Hb by assumption. reflexivity. Qed.

Lemma pcd_add n a a' b b' k :
  pcd n (fun i => a i + a' i)%Z (fun i => b i + b' i)%Z k = (pcd n a b k + pcd n a b' k + (pcd n a' b k + pcd n a' b' k))%Z.
Proof.
  unfold pcd. rewrite <- !zsum_add. apply zsum_ext; intros i Hi. rewrite <- !zsum_add. apply zsum_ext; intros j Hj.
  destruct (i + j =? k); lia.
Qed.

(** the four blocks of the product of two polynomials cut in halves *)
Lemma pcd_split h a b k :
  pcd (h + h) a b k =
  (pcd h a b k + (if (h <=? k)%nat then pcd h a (fun j => b (h + j)%nat) (k - h)%nat + pcd h (fun j => a (h + j)%nat) b (k - h)%nat else 0)
   + (if (h + h <=? k)%nat then pcd h (fun j => a (h + j)%nat) (fun j => b (h + j)%nat) (k - (h + h))%nat else 0))%Z.
Proof.
  unfold pcd at 1. rewrite zsum_split.
  rewrite (zsum_ext h _ (fun i => zsum h (fun j => if (i + j =? k)%nat then a i * b j else 0) +
                                  zsum h (fun j => if (i + (h + j)%nat =? k)%nat then a i * b (h + j)%nat else 0))%Z)
    by (intros i Hi; apply zsum_split).
  rewrite (zsum_ext h (fun i => zsum (h + h) _) (fun i => zsum h (fun j => if (h + i + j =? k)%nat then a (h + i)%nat * b j else 0) +
                                  zsum h (fun j => if (h + i + (h + j)%nat =? k)%nat then a (h + i)%nat * b (h + j)%nat else 0))%Z)
    by (intros i Hi; apply (zsum_split h h (fun j => if (h + i + j =? k)%nat then a (h + i)%nat * b j else 0)%Z)).
  rewrite !zsum_add.
  assert (E : forall (f : nat -> nat -> nat) (x y : nat -> Z) c, (forall i j, f i j = c + (i + j)) ->
    zsum h (fun i => zsum h (fun j => if (f i j =? k)%nat then x i * y j else 0)%Z) = if (c <=? k)%nat then pcd h x y (k - c) else 0%Z).
  { intros f x y c Hf. destruct (Nat.leb_spec c k).
    - apply zsum_ext; intros i Hi. apply zsum_ext; intros j Hj. rewrite Hf.
      destruct (Nat.eqb_spec (c + (i + j)) k), (Nat.eqb_spec (i + j) (k - c)); try lia; reflexivity.
    - apply zsum_zero; intros i Hi. apply zsum_zero; intros j Hj. rewrite Hf.
      destruct (Nat.eqb_spec (c + (i + j)) k); [lia|reflexivity]. }
  rewrite (E (fun i j => i + j) a b 0) by (intros; lia).
  rewrite (E (fun i j => i + (h + j)%nat) a (fun j => b (h + j)%nat) h) by (intros; lia).
  rewrite (E (fun i j => h + i + j) (fun i => a (h + i)%nat) b h) by (intros; lia).
  rewrite (E (fun i j => h + i + (h + j)%nat) (fun i => a (h + i)%nat) (fun j => b (h + j)%nat) (h + h)) by (intros; lia).
  simpl (0 <=? k). cbv iota. replace (k - 0) with k by lia.
  destruct (h <=? k), (h + h <=? k); lia.
Qed.

Lemma pcd_high n a b k : 2 * n <= k + 1 -> pcd n a b k = 0%Z.
Proof.
  intros H. apply zsum_zero; intros i Hi. apply zsum_zero; intros j Hj.
  destruct (Nat.eqb_spec (i + j) k); [lia|reflexivity].
Qed.

Notation zn a := (fun i : nat => nth i a 0%Z).

Lemma two_pow_S l : 2 ^ S l = 2 ^ l + 2 ^ l.
Proof. simpl. lia. Qed.

Lemma karatsuba_ok lg : forall a b, length a = 2 ^ lg -> length b = 2 ^ lg ->
  karatsuba lg a b = Ok (tab (2 * 2 ^ lg) (pcd (2 ^ lg) (zn a) (zn b))).
Proof.
  induction lg as [|lg IH]; intros a b La Lb.
  - destruct a as [|x [|? ?]], b as [|y [|? ?]]; try discriminate. unfold tab, pcd. simpl. reflexivity.
  - cbn [karatsuba]. set (h := 2 ^ lg) in *.
    assert (E2 : 2 ^ S lg = h + h) by apply two_pow_S. rewrite E2 in La, Lb |- *.
    destruct (forn_inv (fun i '(a0, a1, b0, b1, ax, bx) =>
      filled Z 0%Z h i (zn a) (fun _ => 0%Z) a0 /\ filled Z 0%Z h i (fun i => nth (h + i)%nat a 0%Z) (fun _ => 0%Z) a1 /\
      filled Z 0%Z h i (zn b) (fun _ => 0%Z) b0 /\ filled Z 0%Z h i (fun i => nth (h + i)%nat b 0%Z) (fun _ => 0%Z) b1 /\
      filled Z 0%Z h i (fun i => nth i a 0 + nth (h + i)%nat a 0)%Z (fun _ => 0%Z) ax /\
      filled Z 0%Z h i (fun i => nth i b 0 + nth (h + i)%nat b 0)%Z (fun _ => 0%Z) bx) h 0
      (fun i '(a0, a1, b0, b1, ax, bx) =>
        al <- rd a i ;; ah <- rd a (h + i)%nat ;;
        bl <- rd b i ;; bh <- rd b (h + i)%nat ;;
        a0 <- wr a0 i al ;; a1 <- wr a1 i ah ;;
        b0 <- wr b0 i bl ;; b1 <- wr b1 i bh ;;
        ax <- wr ax i (al + ah)%Z ;; bx <- wr bx i (bl + bh)%Z ;;
        Ok (a0, a1, b0, b1, ax, bx)) (repeat 0%Z h, repeat 0%Z h, repeat 0%Z h, repeat 0%Z h, repeat 0%Z h, repeat 0%Z h))
      as [[[[[[a0 a1] b0] b1] ax] bx] [E P]].
    { assert (S0 : forall f, filled Z 0%Z h 0 f (fun _ => 0%Z) (repeat 0%Z h)).
      { intros f. split; [apply repeat_length|]. intros j Hj. rewrite nth_repeat0 by exact Hj. reflexivity. }
      repeat split; try apply repeat_length; apply S0. }
    { intros j [[[[[a0 a1] b0] b1] ax] bx] Hj [F1 [F2 [F3 [F4 [F5 F6]]]]]. simpl in Hj.
      rewrite !(rd_Ok _ _ 0%Z) by lia. cbn [bind].
      destruct (filled_wr _ _ _ _ _ _ _ (proj2 Hj) F1) as [-> G1]. cbn [bind].
      destruct (filled_wr _ _ _ _ _ _ _ (proj2 Hj) F2) as [-> G2]. cbn [bind].
      destruct (filled_wr _ _ _ _ _ _ _ (proj2 Hj) F3) as [-> G3]. cbn [bind].
      destruct (filled_wr _ _ _ _ _ _ _ (proj2 Hj) F4) as [-> G4]. cbn [bind].
      destruct (filled_wr _ _ _ _ _ _ _ (proj2 Hj) F5) as [-> G5]. cbn [bind].
      destruct (filled_wr _ _ _ _ _ _ _ (proj2 Hj) F6) as [-> G6]. cbn [bind].
      eexists; split; [reflexivity|]. cbv beta iota. auto 10. }
    rewrite E. clear E. cbn [bind]. simpl (0 + h) in P.
    destruct P as [F1 [F2 [F3 [F4 [F5 F6]]]]].
    apply filled_end in F1, F2, F3, F4, F5, F6. subst a0 a1 b0 b1 ax bx.
    rewrite !IH by apply tab_length. cbn [bind].
    set (A := tab (2 * h) (pcd h (zn (tab h (zn a))) (zn (tab h (zn b))))).
    set (B := tab (2 * h) (pcd h (zn (tab h (fun i => nth (h + i)%nat a 0%Z))) (zn (tab h (fun i => nth (h + i)%nat b 0%Z))))).
    match goal with |- context [forn _ 0 _ (tab (2 * h) ?f)] => set (X := tab (2 * h) f) end.
    assert (LA : length A = 2 * h) by apply tab_length. assert (LB : length B = 2 * h) by apply tab_length.
    assert (LX : length X = 2 * h) by apply tab_length.
    rewrite (fill_ok Z 0%Z (2 * h) _ X (fun i => nth i X 0 - (nth i A 0 + nth i B 0))%Z LX).
    2: { intros i v Hi Hv. rewrite (filled_rd _ _ _ _ _ _ _ Hi Hv). cbn [bind]. rewrite !(rd_Ok _ _ 0%Z) by lia. cbn [bind].
         apply wr_Ok. destruct Hv; lia. }
    cbn [bind].
    (* values of the three products *)
    set (p00 := pcd h (zn a) (zn b)). set (p01 := pcd h (zn a) (fun j => nth (h + j)%nat b 0%Z)).
    set (p10 := pcd h (fun j => nth (h + j)%nat a 0%Z) (zn b)). set (p11 := pcd h (fun j => nth (h + j)%nat a 0%Z) (fun j => nth (h + j)%nat b 0%Z)).
    assert (VA : forall k, k < 2 * h -> nth k A 0%Z = p00 k).
    { intros k Hk. unfold A, p00. rewrite nth_tab by exact Hk. apply pcd_ext; intros i Hi; rewrite nth_tab by exact Hi; reflexivity. }
    assert (VB : forall k, k < 2 * h -> nth k B 0%Z = p11 k).
    { intros k Hk. unfold B, p11. rewrite nth_tab by exact Hk. apply pcd_ext; intros i Hi; rewrite nth_tab by exact Hi; reflexivity. }
    set (Y := tab (2 * h) (fun i => nth i X 0 - (nth i A 0 + nth i B 0))%Z).
    assert (VY : forall k, k < 2 * h -> nth k Y 0%Z = (p01 k + p10 k)%Z).
    { intros k Hk. unfold Y. rewrite nth_tab by exact Hk. rewrite VA, VB by exact Hk. unfold X. rewrite nth_tab by exact Hk.
      erewrite pcd_ext; [|intros i Hi; rewrite nth_tab by exact Hi; reflexivity|intros i Hi; rewrite nth_tab by exact Hi; reflexivity].
      rewrite pcd_add. fold p00 p01 p10 p11. unfold p00, p01, p10, p11. lia. }
    assert (LY : length Y = 2 * h) by apply tab_length.
    clearbody A B Y. clear LX X IH E2.
    (* final accumulation: after i iterations *)
    set (val := fun i k => ((if (k <? i)%nat then p00 k else 0) + (if ((h <=? k) && (k - h <? i))%nat then p01 (k - h)%nat + p10 (k - h)%nat else 0)
                  + (if ((2 * h <=? k) && (k - 2 * h <? i))%nat then p11 (k - 2 * h)%nat else 0))%Z).
    assert (Hh : 0 < h) by (unfold h; apply pow2_pos).
    match goal with |- forn ?n 0 ?body ?init = _ =>
      destruct (forn_inv (fun i ab => length ab = 4 * h /\ forall k, k < 4 * h -> nth k ab 0%Z = val i k) n 0 body init) as [r [E P]] end.
    { split; [rewrite repeat_length; lia|]. intros k Hk. rewrite nth_repeat0 by lia. unfold val. simpl.
      rewrite !andb_false_r. reflexivity. }
    { intros i ab Hi [L H]. simpl in Hi.
      rewrite (rd_Ok ab i 0%Z) by lia. cbn [bind]. rewrite (rd_Ok A i 0%Z) by lia. cbn [bind].
      rewrite wr_Ok by lia. cbn [bind]. set (ab1 := upd ab i _). assert (L1 : length ab1 = 4 * h) by (unfold ab1; rewrite upd_length; exact L).
      rewrite (rd_Ok ab1 _ 0%Z) by lia. cbn [bind]. rewrite (rd_Ok B i 0%Z) by lia. cbn [bind].
      rewrite wr_Ok by lia. cbn [bind]. set (ab2 := upd ab1 _ _). assert (L2 : length ab2 = 4 * h) by (unfold ab2; rewrite upd_length; exact L1).
      rewrite (rd_Ok ab2 _ 0%Z) by lia. cbn [bind]. rewrite (rd_Ok Y i 0%Z) by lia. cbn [bind].
      rewrite wr_Ok by lia. eexists; split; [reflexivity|]. split; [rewrite upd_length; exact L2|].
      intros k Hk. rewrite nth_upd by lia. unfold ab2. rewrite !nth_upd by lia. unfold ab1. rewrite !nth_upd by lia.
      rewrite VA, VB, VY by lia. rewrite !H by lia. clear - Hi Hk Hh. unfold val.
      repeat match goal with
      | |- context [Nat.eqb ?x ?y] => destruct (Nat.eqb_spec x y); try lia
      end;
      repeat match goal with
      | |- context [Nat.ltb ?x ?y] => destruct (Nat.ltb_spec x y); try lia
      | |- context [Nat.leb ?x ?y] => destruct (Nat.leb_spec x y); try lia
      end; cbn [andb]; subst; try lia;
      repeat match goal with
      | |- context [p00 ?x] => progress replace x with i by lia
      | |- context [p01 ?x] => progress replace x with i by lia
      | |- context [p11 ?x] => progress replace x with i by lia
      end; try lia. all: shelve. }
    rewrite E. destruct P as [L H]. f_equal. apply (list_ext 0%Z); [rewrite tab_length; lia|]. rewrite L. intros k Hk.
    rewrite H by exact Hk. rewrite nth_tab by lia. rewrite pcd_split. fold p00 p01 p10 p11. unfold val. simpl (0 + 2 * h).
    assert (Z00 : 2 * h <= k -> p00 k = 0%Z) by (intros; apply pcd_high; lia).
    assert (Z01 : 3 * h <= k -> p01 (k - h) = 0%Z) by (intros; apply pcd_high; lia).
    assert (Z10 : 3 * h <= k -> p10 (k - h) = 0%Z) by (intros; apply pcd_high; lia).
    replace (h + h) with (2 * h) by lia. clear - Hk Z00 Z01 Z10 Hh.
    repeat match goal with
      | |- context [Nat.ltb ?x ?y] => destruct (Nat.ltb_spec x y); try lia
      | |- context [Nat.leb ?x ?y] => destruct (Nat.leb_spec x y); try lia
      end; cbn [andb]; try lia.
Qed.

Lemma karatsuba_length lg a b : length (tab (2 * 2 ^ lg) (pcd (2 ^ lg) (zn a) (zn b))) = 2 * 2 ^ lg.
Proof. apply tab_length. Qed.

(** coefficient k of the negacyclic product *)
Lemma nconv_pcd n a b k : k < n -> nconv Z 0%Z Z.add Z.mul Z.opp n a b k = (pcd n a b k - pcd n a b (n + k))%Z.
Proof.
  intros Hk. unfold nconv, pcd. rewrite <- zsum_rsum.
  assert (E : forall f g, (zsum n f - zsum n g)%Z = zsum n (fun i => f i - g i)%Z).
  { intros f g. rewrite !zsum_rsum. symmetry. apply (rsum_sub _ _ _ _ _ _ _ Zth'). }
  rewrite E. apply zsum_ext. intros i Hi. unfold sh. destruct (Nat.leb_spec i k).
  - rewrite (zsum_single n _ (k - i)); [|lia|].
    2: { intros j Hj Hn. destruct (Nat.eqb_spec (i + j) k); [lia|reflexivity]. }
    rewrite (zsum_zero n). 2: { intros j Hj. destruct (Nat.eqb_spec (i + j) (n + k)); [lia|reflexivity]. }
    destruct (Nat.eqb_spec (i + (k - i)) k); lia.
  - rewrite (zsum_single n (fun j => if (i + j =? n + k)%nat then _ else _) (n + k - i)); [|lia|].
    2: { intros j Hj Hn. destruct (Nat.eqb_spec (i + j) (n + k)); [lia|reflexivity]. }
    rewrite (zsum_zero n). 2: { intros j Hj. destruct (Nat.eqb_spec (i + j) k); [lia|reflexivity]. }
    destruct (Nat.eqb_spec (i + (n + k - i)) (n + k)); lia.
Qed.

Lemma karamul_ok lg a b : length a = 2 ^ lg -> length b = 2 ^ lg ->
  karamul lg a b = Ok (pl Z (2 ^ lg) (zmul (zof (2 ^ lg) a) (zof (2 ^ lg) b))).
Proof.
  intros La Lb. unfold karamul. rewrite karatsuba_ok by assumption. cbn [bind].
  set (n := 2 ^ lg) in *. set (ab := tab (2 * n) _). assert (L : length ab = 2 * n) by apply tab_length.
  rewrite (fill_ok Z 0%Z n _ _ (fun i => nth i ab 0 - nth (n + i) ab 0)%Z (repeat_length _ _)).
  2: { intros i v Hi Hv. rewrite !(rd_Ok ab _ 0%Z) by lia. cbn [bind]. apply wr_Ok. destruct Hv; lia. }
  f_equal. unfold Poly.pmul. simpl. apply tab_ext. intros i Hi. unfold ab. rewrite !nth_tab by lia.
  rewrite nconv_pcd by exact Hi. f_equal; apply pcd_ext; intros j Hj; rewrite pc_ofl by exact Hj; reflexivity.
Qed.

(** ** lift, galois_conjugate, field_norm *)
Lemma lift_ok lg a : length a = 2 ^ lg -> lift lg a = Ok (pl Z (2 * 2 ^ lg) (plift Z 0%Z (zof (2 ^ lg) a))).
Proof.
  intros La. unfold lift. set (n := 2 ^ lg) in *.
  match goal with |- forn ?m 0 ?body ?init = _ =>
    destruct (forn_inv (fun i v => length v = 2 * n /\ forall k, k < 2 * n -> nth k v 0%Z =
       if Nat.even k && (k / 2 <? i) then nth (k / 2) a 0%Z else 0%Z) m 0 body init) as [r [E P]] end.
  - split; [rewrite repeat_length; lia|]. intros k Hk. rewrite nth_repeat0 by lia. rewrite andb_false_r. reflexivity.
  - intros i v Hi [L H]. simpl in Hi. rewrite (rd_Ok a i 0%Z) by lia. cbn [bind]. rewrite wr_Ok by lia.
    eexists; split; [reflexivity|]. split; [rewrite upd_length; exact L|]. intros k Hk. rewrite nth_upd by lia. rewrite H by exact Hk.
    destruct (parity_case k) as [x [-> | ->]]; rewrite ?evenb2, ?evenb21, ?half2, ?half21; cbn [andb].
    + destruct (Nat.eqb_spec (2 * x) (2 * i)), (Nat.ltb_spec x i), (Nat.ltb_spec x (S i)); try lia; try reflexivity.
      f_equal; lia.
    + destruct (Nat.eqb_spec (2 * x + 1) (2 * i)); [lia|reflexivity].
  - rewrite E. destruct P as [L H]. f_equal. apply (list_ext 0%Z); [rewrite L, pl_length; reflexivity|]. rewrite L. intros k Hk.
    rewrite H by exact Hk. unfold plift. simpl (pl _ _ _). rewrite nth_tab by lia.
    simpl (0 + n). destruct (Nat.even k) eqn:Ev; cbn [andb]; [|reflexivity].
    assert (Hd : k / 2 < n) by (apply Nat.div_lt_upper_bound; lia).
    destruct (Nat.ltb_spec (k / 2) n); [|lia]. rewrite pc_ofl by exact Hd. reflexivity.
Qed.

Lemma galois_ok lg a : length a = 2 ^ lg -> galois_conjugate lg a = Ok (pl Z (2 ^ lg) (pconj Z 0%Z Z.opp (zof (2 ^ lg) a))).
Proof.
  intros La. unfold galois_conjugate. set (n := 2 ^ lg) in *.
  rewrite (fill_ok Z 0%Z n _ _ (fun i => if Nat.odd i then - nth i a 0 else nth i a 0)%Z (repeat_length _ _)).
  - f_equal. unfold pconj. simpl. apply tab_ext. intros i Hi. rewrite pc_ofl by exact Hi. rewrite <- Nat.negb_even.
    destruct (Nat.even i); reflexivity.
  - intros i v Hi Hv. rewrite (rd_Ok a _ 0%Z) by lia. cbn [bind]. apply wr_Ok. destruct Hv; lia.
Qed.

Notation znorm := (pnorm Z 0%Z 1%Z Z.add Z.mul Z.sub Z.opp).

Lemma field_norm_ok lg a : length a = 2 ^ S lg ->
  field_norm (S lg) a = Ok (pl Z (2 ^ lg) (znorm (zof (2 * 2 ^ lg) a))).
Proof.
  intros La. unfold field_norm. assert (EE : 2 ^ S lg / 2 = 2 ^ lg) by apply half2. rewrite EE.
  replace (S lg - 1) with lg by lia. rewrite two_pow_S in La. set (n := 2 ^ lg) in *.
  assert (Hn : 0 < n) by (unfold n; apply pow2_pos).
  match goal with |- bind (forn ?m 0 ?body ?init) _ = _ =>
    destruct (forn_inv (fun i '(e, o) => filled Z 0%Z n i (fun i => nth (2 * i) a 0%Z) (fun _ => 0%Z) e /\
       filled Z 0%Z n i (fun i => nth (2 * i + 1) a 0%Z) (fun _ => 0%Z) o) m 0 body init) as [[e o] [E [P1 P2]]] end.
  - assert (S0 : forall f, filled Z 0%Z n 0 f (fun _ => 0%Z) (repeat 0%Z n)).
    { intros f. split; [apply repeat_length|]. intros j Hj. rewrite nth_repeat0 by exact Hj. reflexivity. }
    split; apply S0.
  - intros i [e o] Hi [F1 F2]. simpl in Hi. rewrite (rd_Ok a _ 0%Z) by lia. cbn [bind].
    destruct (filled_wr _ _ _ _ _ _ _ (proj2 Hi) F1) as [-> G1]. cbn [bind]. rewrite (rd_Ok a _ 0%Z) by lia. cbn [bind].
    destruct (filled_wr _ _ _ _ _ _ _ (proj2 Hi) F2) as [-> G2]. cbn [bind].
    eexists; split; [reflexivity|]. split; assumption.
  - rewrite E. cbn [bind]. simpl (0 + n) in P1, P2. apply filled_end in P1, P2. subst e o.
    rewrite !karamul_ok by apply tab_length. fold n. cbn [bind].
    set (A := zof (2 * n) a).
    assert (Ee : zof n (tab n (fun i => nth (2 * i) a 0%Z)) = Poly.pev Z 0%Z A).
    { apply (pv_ext Z 0%Z). intros k Hk. unfold Poly.pev. rewrite pc_ofl, nth_tab, pc_mkp by exact Hk. unfold A. rewrite pc_ofl by lia. reflexivity. }
    assert (Eo : zof n (tab n (fun i => nth (2 * i + 1) a 0%Z)) = Poly.pod Z 0%Z A).
    { apply (pv_ext Z 0%Z). intros k Hk. unfold Poly.pod. rewrite pc_ofl, nth_tab, pc_mkp by exact Hk. unfold A. rewrite pc_ofl by lia. reflexivity. }
    rewrite Ee, Eo. set (ee := zmul (Poly.pev Z 0%Z A) (Poly.pev Z 0%Z A)). set (oo := zmul (Poly.pod Z 0%Z A) (Poly.pod Z 0%Z A)).
    match goal with |- bind (forn ?m 0 ?body ?init) _ = _ =>
      destruct (forn_inv (fun i r => length r = n /\ forall k, k < n -> nth k r 0%Z =
         if (1 <=? k) && (k - 1 <? i) then (zc ee k - zc oo (k - 1)%nat)%Z else zc ee k) m 0 body init) as [r [Er [L H]]] end.
    + split; [apply pl_length|]. intros k Hk. rewrite andb_false_r. reflexivity.
    + intros i r Hi [L H]. simpl in Hi. rewrite (rd_Ok r _ 0%Z) by lia. cbn [bind].
      rewrite (rd_Ok (pl Z n oo) _ 0%Z) by (rewrite pl_length; lia). cbn [bind]. rewrite wr_Ok by lia.
      eexists; split; [reflexivity|]. split; [rewrite upd_length; exact L|]. intros k Hk. rewrite nth_upd by lia.
      rewrite !H by lia. change (nth i (pl Z n oo) 0%Z) with (zc oo i).
      destruct (Nat.eqb_spec k (i + 1)).
      * subst k. replace (i + 1 - 1) with i by lia.
        destruct (Nat.leb_spec 1 (i + 1)), (Nat.ltb_spec i i), (Nat.ltb_spec i (S i)); try lia; reflexivity.
      * destruct (Nat.leb_spec 1 k), (Nat.ltb_spec (k - 1) i), (Nat.ltb_spec (k - 1) (S i)); try lia; reflexivity.
    + rewrite Er. cbn [bind]. rewrite (rd_Ok r 0 0%Z) by lia. cbn [bind].
      rewrite (rd_Ok (pl Z n oo) _ 0%Z) by (rewrite pl_length; lia). cbn [bind]. rewrite wr_Ok by lia. f_equal.
      apply (list_ext 0%Z); [rewrite upd_length, L, pl_length; reflexivity|]. rewrite upd_length, L. intros k Hk.
      rewrite nth_upd by lia. rewrite !H by lia. change (nth k (pl Z n (znorm A)) 0%Z) with (zc (znorm A) k).
      unfold pnorm. fold ee oo. rewrite pc_sub by exact Hk. rewrite (pc_px_mul _ _ _ _ _ _ _ Zth') by lia.
      change (nth (n - 1) (pl Z n oo) 0%Z) with (zc oo (n - 1)). unfold sh. simpl (0 + (n - 1)).
      destruct (Nat.eqb_spec k 0); [subst k|].
      * simpl. replace (n + 0 - 1) with (n - 1) by lia. lia.
      * destruct (Nat.leb_spec 1 k), (Nat.ltb_spec (k - 1) (n - 1)); try lia. reflexivity.
Qed.

(** ** xgcd *)
Lemma quot_rem_abs a b : b <> 0%Z -> (Z.abs (a - Z.quot a b * b) < Z.abs b)%Z.
Proof.
  intros H. replace (a - Z.quot a b * b)%Z with (Z.rem a b) by (rewrite Z.rem_eq by exact H; lia).
  pose proof (Z.rem_bound_abs a b H). exact H0.
Qed.
Lemma gcd_quot a b : Z.gcd b (a - Z.quot a b * b) = Z.gcd a b.
Proof.
  rewrite (Z.gcd_comm a b). replace (a - Z.quot a b * b)%Z with (a + (- Z.quot a b) * b)%Z by ring.
  rewrite Z.gcd_add_mult_diag_r. reflexivity.
Qed.

Open Scope Z_scope.
Lemma xgcd_loop_ok x y : forall fuel old_r r old_s s old_t t,
  (Z.to_nat (Z.abs r) <= fuel)%nat ->
  old_s * x + old_t * y = old_r -> s * x + t * y = r ->
  exists a b g, xgcd_loop fuel old_r r old_s s old_t t = Ok (a, b, g) /\ a * x + b * y = g /\ Z.abs g = Z.gcd old_r r.
Proof.
  induction fuel as [|fuel IH]; intros old_r r old_s s old_t t Hf H1 H2; cbn [xgcd_loop];
    destruct (Z.eqb_spec r 0) as [Hr|Hr]; cbn [negb].
  - exists old_s, old_t, old_r. rewrite Hr, Z.gcd_0_r. auto.
  - exfalso. lia.
  - exists old_s, old_t, old_r. rewrite Hr, Z.gcd_0_r. auto.
  - pose proof (quot_rem_abs old_r r Hr) as Hq. cbv zeta. set (qt := Z.quot old_r r) in *.
    destruct (IH r (old_r - qt * r) s (old_s - qt * s) t (old_t - qt * t)) as [a [b [g [E [B G]]]]]; [lia|exact H2| |].
    + rewrite <- H1, <- H2. ring.
    + exists a, b, g. split; [exact E|]. split; [exact B|]. rewrite G. apply gcd_quot.
Qed.

(** more fuel does not change the result *)
Lemma xgcd_loop_mono : forall fuel fuel' old_r r old_s s old_t t v, (fuel <= fuel')%nat ->
  xgcd_loop fuel old_r r old_s s old_t t = Ok v -> xgcd_loop fuel' old_r r old_s s old_t t = Ok v.
Proof.
  induction fuel as [|fuel IH]; intros [|fuel'] old_r r old_s s old_t t v Hf; cbn [xgcd_loop];
    destruct (negb (r =? 0)); auto; try discriminate; try lia.
  intros H. apply IH with (2 := H). lia.
Qed.
Lemma xgcd_sound fuel x y a b g : xgcd fuel x y = Ok (a, b, g) -> a * x + b * y = g /\ Z.abs g = Z.gcd x y.
Proof.
  intros H. destruct (xgcd_loop_ok x y (Nat.max fuel (Z.to_nat (Z.abs y))) x y 1 0 0 1) as [a' [b' [g' [E [B G]]]]]; try lia.
  apply (xgcd_loop_mono fuel (Nat.max fuel (Z.to_nat (Z.abs y)))) in H; [|lia].
  rewrite E in H. injection H as <- <- <-. split; assumption.
Qed.

(** ** The NTRU equation in the ring *)
Notation zcst := (pcst Z 0%Z).
Lemma ntru_iff n f g F G :
  ntru n f g F G <-> zsub (zmul (zof n f) (zof n G)) (zmul (zof n g) (zof n F)) = zcst q.
Proof.
  unfold ntru. rewrite !negacyclic_zmul. split.
  - intros H. apply (pv_ext Z 0). intros k Hk. rewrite pc_sub by exact Hk. unfold pcst. rewrite pc_mkp by exact Hk.
    apply H; exact Hk.
  - intros H k Hk. assert (E := f_equal (fun p => zc p k) H). cbv beta in E. rewrite pc_sub in E by exact Hk.
    unfold pcst in E. rewrite pc_mkp in E by exact Hk. exact E.
Qed.

Lemma pc_cst_mul n c (a : zpv n) k : (k < n)%nat -> zc (zmul (zcst c) a) k = c * zc a k.
Proof.
  intros Hk. rewrite pc_mul by exact Hk.
  rewrite <- (nconv_cst_l _ _ _ _ _ _ _ Zth' n c (zc a) k Hk).
  apply nconv_ext; [exact Hk| |reflexivity]. intros j Hj. unfold pcst. rewrite pc_mkp by exact Hj. reflexivity.
Qed.

(** ** Lengths of arrays filled by loops *)
Lemma forn_len {A} n i (body : nat -> list A -> res (list A)) s r :
  (forall j v v', body j v = Ok v' -> length v' = length v) -> forn n i body s = Ok r -> length r = length s.
Proof.
  intros H E. apply (forn_inv_ok (fun _ v => length v = length s) n i body s r); auto.
  intros j t t' _ Ht Eb. rewrite (H _ _ _ Eb). exact Ht.
Qed.
Lemma wr_len {A} (v : list A) i x v' : wr v i x = Ok v' -> length v' = length v.
Proof. unfold wr. destruct (Nat.ltb i (length v)); intros H; inversion H. apply upd_length. Qed.

Ltac binv H := let a := fresh "a" in let E := fresh "E" in apply bind_Ok in H; destruct H as [a [E H]].

Section Float.
Variable F : fops.
Notation C := (D F * D F)%type.
Variable ztab : list C.

(** one update of (F, G): both multiples of the same k *)
Lemma update_ok n (F_ G_ fk gk : list Z) sh :
  length F_ = n -> length G_ = n -> length fk = n -> length gk = n ->
  forn n 0 (fun i '(F_, G_) =>
     x <- rd F_ i ;; y <- rd fk i ;; F_ <- wr F_ i (x - Z.shiftl y sh) ;;
     x <- rd G_ i ;; y <- rd gk i ;; G_ <- wr G_ i (x - Z.shiftl y sh) ;;
     Ok (F_, G_)) (F_, G_) =
  Ok (tab n (fun i => nth i F_ 0 - Z.shiftl (nth i fk 0) sh), tab n (fun i => nth i G_ 0 - Z.shiftl (nth i gk 0) sh)).
Proof.
  intros L1 L2 L3 L4.
  match goal with |- forn ?m 0 ?body ?init = _ =>
    destruct (forn_inv (fun i '(e, o) => filled Z 0 n i (fun i => nth i F_ 0 - Z.shiftl (nth i fk 0) sh) (fun i => nth i F_ 0) e /\
       filled Z 0 n i (fun i => nth i G_ 0 - Z.shiftl (nth i gk 0) sh) (fun i => nth i G_ 0) o) m 0%nat body init) as [[e o] [E [P1 P2]]] end.
  - split; apply filled_start; assumption.
  - intros i [e o] Hi [F1 F2]. simpl in Hi. assert (Hi' : (i < n)%nat) by lia.
    rewrite (filled_rd _ _ _ _ _ _ _ Hi' F1). cbn [bind]. rewrite (rd_Ok fk _ 0) by lia. cbn [bind].
    destruct (filled_wr _ _ _ _ _ _ _ Hi' F1) as [-> G1]. cbn [bind].
    rewrite (filled_rd _ _ _ _ _ _ _ Hi' F2). cbn [bind]. rewrite (rd_Ok gk _ 0) by lia. cbn [bind].
    destruct (filled_wr _ _ _ _ _ _ _ Hi' F2) as [-> G2]. cbn [bind].
    eexists; split; [reflexivity|]. split; assumption.
  - rewrite E. simpl in P1, P2. apply filled_end in P1, P2. subst. reflexivity.
Qed.

Lemma zof_update n a k sh : 0 <= sh -> length a = n -> 
  zof n (tab n (fun i => nth i a 0 - Z.shiftl (nth i (pl Z n k) 0) sh)) = zsub (zof n a) (zmul (zcst (2 ^ sh)) k).
Proof.
  intros Hs L. apply (pv_ext Z 0). intros i Hi. rewrite pc_ofl, nth_tab, pc_sub, pc_cst_mul, pc_ofl by exact Hi.
  rewrite Z.shiftl_mul_pow2 by exact Hs. unfold pc. ring.
Qed.

Lemma ntru_update n f g F_ G_ k sh : 0 <= sh -> length F_ = n -> length G_ = n ->
  ntru n f g (tab n (fun i => nth i F_ 0 - Z.shiftl (nth i (pl Z n (zmul (zof n f) k)) 0) sh))
             (tab n (fun i => nth i G_ 0 - Z.shiftl (nth i (pl Z n (zmul (zof n g) k)) 0) sh)) <-> ntru n f g F_ G_.
Proof.
  intros Hs L1 L2. rewrite !ntru_iff. rewrite !zof_update by assumption.
  rewrite (alg_reduce _ _ _ _ _ _ _ (pring _ _ _ _ _ _ _ Zth' n)). reflexivity.
Qed.

Lemma reduce_loop_ok fuel : forall lg f g blen0 fa ga fd gd F_ G_ F' G',
  length f = (2 ^ lg)%nat -> length g = (2 ^ lg)%nat -> length F_ = (2 ^ lg)%nat -> length G_ = (2 ^ lg)%nat ->
  reduce_loop F ztab fuel lg f g blen0 fa ga fd gd F_ G_ = Ok (F', G') ->
  length F' = (2 ^ lg)%nat /\ length G' = (2 ^ lg)%nat /\ (ntru (2 ^ lg) f g F' G' <-> ntru (2 ^ lg) f g F_ G_).
Proof.
  induction fuel as [|fuel IH]; intros lg f g blen0 fa ga fd gd F_ G_ F' G' Lf Lg LF LG H; [discriminate|].
  cbn [reduce_loop] in H. apply bind_Ok in H; destruct H as [blen1 [_ H]].
  destruct (Z.ltb_spec blen1 blen0) as [Hb|Hb]; [injection H as <- <-; tauto|].
  do 11 binv H.
  assert (LK : length a9 = (2 ^ lg)%nat).
  { apply forn_len in E9; [rewrite E9; apply repeat_length|]. intros j v v' Eb.
    do 2 (apply bind_Ok in Eb; destruct Eb as [? [_ Eb]]). apply wr_len in Eb. exact Eb. }
  binv H. destruct (negb a10); [injection H as <- <-; tauto|].
  rewrite !karamul_ok in H by assumption. cbn [bind] in H.
  rewrite update_ok in H by (try assumption; apply pl_length). cbn [bind] in H.
  apply IH in H; [|exact Lf|exact Lg|apply tab_length|apply tab_length].
  destruct H as [H1 [H2 H3]]. split; [exact H1|]. split; [exact H2|]. rewrite H3. apply ntru_update; [lia|assumption|assumption].
Qed.

Lemma reduce_ok fuel lg f g F_ G_ F' G' :
  length f = (2 ^ lg)%nat -> length g = (2 ^ lg)%nat -> length F_ = (2 ^ lg)%nat -> length G_ = (2 ^ lg)%nat ->
  reduce F ztab fuel lg f g F_ G_ = Ok (F', G') ->
  length F' = (2 ^ lg)%nat /\ length G' = (2 ^ lg)%nat /\ (ntru (2 ^ lg) f g F' G' <-> ntru (2 ^ lg) f g F_ G_).
Proof.
  intros Lf Lg LF LG H. unfold reduce in H. do 5 binv H. apply reduce_loop_ok in H; assumption.
Qed.

Lemma ntru_solve_ok fuel lg : forall f g F' G', length f = (2 ^ lg)%nat -> length g = (2 ^ lg)%nat ->
  ntru_solve F ztab fuel lg f g = Ok (Some (F', G')) ->
  length F' = (2 ^ lg)%nat /\ length G' = (2 ^ lg)%nat /\ ntru (2 ^ lg) f g F' G'.
Proof.
  induction lg as [|lg IH]; intros f g F' G' Lf Lg H.
  - destruct f as [|x [|? ?]], g as [|y [|? ?]]; try discriminate. cbn [ntru_solve] in H.
    change (rd [x] 0) with (Ok x) in H. change (rd [y] 0) with (Ok y) in H. cbn [bind] in H.
    apply bind_Ok in H; destruct H as [[[a b] d] [E H]]. apply xgcd_sound in E. destruct E as [E _].
    destruct (Z.eqb_spec d 1) as [->|]; [|discriminate]. cbn [negb] in H.
    assert (HH : F' = [- Q * b] /\ G' = [Q * a]) by (split; congruence). destruct HH as [-> ->]. clear H.
    split; [reflexivity|]. split; [reflexivity|]. intros k Hk. simpl in Hk. assert (k = 0%nat) by lia. subst k.
    unfold negacyclic, tab. cbn [map seq nth zsum Nat.leb Nat.eqb Nat.sub Nat.add Nat.pow Nat.mul]. change Q with q.
    transitivity (q * (a * x + b * y)); [ring|rewrite E; ring].
  - assert (E2 : (2 ^ S lg = 2 * 2 ^ lg)%nat) by reflexivity.
    assert (Hn : (1 <= 2 ^ lg)%nat) by apply pow2_pos.
    cbn [ntru_solve] in H. rewrite !field_norm_ok in H by assumption. cbn [bind] in H.
    binv H. destruct a as [[F1 G1]|]; [|discriminate].
    apply IH in E; [|apply pl_length|apply pl_length]. destruct E as [LF1 [LG1 E]].
    rewrite !lift_ok, !galois_ok in H by assumption. cbn [bind] in H.
    rewrite !karamul_ok in H by (rewrite pl_length; reflexivity). cbn [bind] in H.
    apply bind_Ok in H; destruct H as [[F2 G2] [Er H]]. injection H as <- <-.
    apply reduce_ok in Er; [|exact Lf|exact Lg|apply pl_length|apply pl_length].
    destruct Er as [L1 [L2 Er]]. split; [exact L1|]. split; [exact L2|]. apply Er. clear Er L1 L2 F2 G2.
    apply ntru_iff in E. apply ntru_iff. rewrite !ofl_pl in E.
    change (2 ^ S lg)%nat with (2 * 2 ^ lg)%nat. rewrite !ofl_pl.
    set (n := (2 ^ lg)%nat) in *.
    rewrite (alg_solve _ _ _ _ _ _ _ (pring _ _ _ _ _ _ _ Zth' (2 * n))).
    rewrite <- !(pnorm_lift _ _ _ _ _ _ _ Zth') by exact Hn.
    rewrite <- !(plift_mul _ _ _ _ _ _ _ Zth'), <- (plift_sub _ _ _ _ _ _ _ Zth'). rewrite E.
    apply plift_cst.
Qed.
End Float.
