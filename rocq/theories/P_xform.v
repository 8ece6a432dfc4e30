(** P_xform.v -- the loop nests of M_xform compute the layer functions below, for every element type. *)
From Verif Require Import Base M_xform.
Open Scope nat_scope.

(** ** Simple loops *)
Lemma mapw_ok {A} (op : A -> A) n (a : list A) : n = length a -> mapw op n a = Ok (map op a).
Proof.
  intros ->. destruct a as [|d0 a0]; [reflexivity|]. set (a := d0 :: a0).
  unfold mapw.
  destruct (forn_inv (fun i t => length t = length a /\
     forall p, p < length a -> nth p t d0 = if p <? i then op (nth p a d0) else nth p a d0)
     (length a) 0 (fun i v => x <- rd v i ;; wr v i (op x)) a) as [t [E [L H]]].
  - split; [reflexivity|]. intros p Hp; reflexivity.
  - intros j t Hj [L H]. rewrite (rd_Ok t j d0) by lia. cbn [bind].
    rewrite wr_Ok by lia. eexists; split; [reflexivity|]. split; [rewrite upd_length; exact L|].
    intros p Hp. rewrite nth_upd by lia. destruct (Nat.eqb_spec p j) as [->|Hn].
    + rewrite H by lia. destruct (Nat.ltb_spec j j), (Nat.ltb_spec j (S j)); try lia. reflexivity.
    + rewrite H by lia. destruct (Nat.ltb_spec p j), (Nat.ltb_spec p (S j)); try lia; reflexivity.
  - rewrite E. f_equal. apply (list_ext d0); rewrite L; [rewrite map_length; reflexivity|].
    intros i Hi. rewrite H by lia. destruct (Nat.ltb_spec i (0 + length a)); [|lia].
    rewrite (nth_indep (map op a) d0 (op d0)) by (rewrite map_length; lia). rewrite map_nth. reflexivity.
Qed.

Lemma scale_mapw {A} (op : A -> A) n a : scale A op n a = mapw op n a.
Proof. reflexivity. Qed.

(** zip with a possibly failing operation that always succeeds on the given arrays *)
Lemma zipw_ok {A B C} (op : A -> B -> res C) (f : A -> B -> C) n (a : list A) (b : list B) (c : list C) da db :
  n = length a -> n = length b -> n = length c ->
  (forall i, i < n -> op (nth i a da) (nth i b db) = Ok (f (nth i a da) (nth i b db))) ->
  zipw op n a b c = Ok (tab n (fun i => f (nth i a da) (nth i b db))).
Proof.
  intros La Lb Lc Hop. destruct n as [|n'].
  { destruct c; [reflexivity|discriminate]. }
  set (n := S n') in *. destruct c as [|dc c0]; [discriminate|]. set (c := dc :: c0) in *.
  unfold zipw.
  destruct (forn_inv (fun i t => length t = n /\
     forall p, p < i -> nth p t dc = f (nth p a da) (nth p b db))
     n 0 (fun i v => x <- rd a i ;; y <- rd b i ;; r <- op x y ;; wr v i r) c) as [t [E [L H]]].
  - split; [auto|]. intros p Hp; lia.
  - intros j t Hj [L H]. rewrite (rd_Ok a j da), (rd_Ok b j db) by lia. cbn [bind].
    rewrite Hop by lia. cbn [bind]. rewrite wr_Ok by lia. eexists; split; [reflexivity|].
    split; [rewrite upd_length; exact L|].
    intros p Hp. rewrite nth_upd by lia. destruct (Nat.eqb_spec p j) as [->|Hn]; [reflexivity|].
    apply H; lia.
  - rewrite E. f_equal. apply (list_ext dc); rewrite L; [rewrite tab_length; reflexivity|].
    intros i Hi. rewrite nth_tab by lia. apply H; lia.
Qed.

(** ** Arithmetic of positions *)
Lemma pow2_pos l : 0 < 2 ^ l.
Proof. induction l; simpl; lia. Qed.

Lemma pow2_split lg l : l < lg -> 2 ^ lg / (2 * 2 ^ l) = 2 ^ (lg - 1 - l).
Proof.
  intros H. replace (2 ^ lg) with (2 ^ (lg - 1 - l) * (2 * 2 ^ l)).
  - apply Nat.div_mul. assert (P := pow2_pos l); lia.
  - change (2 * 2 ^ l) with (2 ^ S l). rewrite <- Nat.pow_add_r. f_equal; lia.
Qed.

Lemma pow2_blocks lg l : l < lg -> 2 ^ lg = 2 ^ (lg - 1 - l) * (2 * 2 ^ l).
Proof. intros H. change (2 * 2 ^ l) with (2 ^ S l). rewrite <- Nat.pow_add_r. f_equal; lia. Qed.

Lemma div_block b len2 j : j < len2 -> (b * len2 + j) / len2 = b.
Proof. intros H. rewrite Nat.add_comm, Nat.div_add by lia. rewrite Nat.div_small by lia. reflexivity. Qed.
Lemma mod_block b len2 j : j < len2 -> (b * len2 + j) mod len2 = j.
Proof. intros H. rewrite Nat.add_comm, Nat.mod_add by lia. apply Nat.mod_small; exact H. Qed.

Lemma upd_upd_comm {A} (t : list A) i j x y : i <> j -> upd (upd t i x) j y = upd (upd t j y) i x.
Proof.
  revert i j; induction t as [|h t IH]; intros [|i] [|j] H; simpl; auto; try lia. f_equal. apply IH; lia.
Qed.

Lemma upd_upd_same {A} (t : list A) i x y : upd (upd t i x) i y = upd t i y.
Proof. revert i; induction t as [|h t IH]; intros [|i]; simpl; auto. f_equal. apply IH. Qed.

Lemma forn_ext {S} n i (f g : nat -> S -> res S) s :
  (forall j t, i <= j < i + n -> f j t = g j t) -> forn n i f s = forn n i g s.
Proof.
  revert i s; induction n as [|n IH]; intros i s H; simpl; [reflexivity|].
  rewrite H by lia. destruct (g i s); simpl; auto. apply IH. intros j t Hj; apply H; lia.
Qed.

Lemma forn_shift {S} n i (f : nat -> S -> res S) s : forn n (Datatypes.S i) f s = forn n i (fun j => f (Datatypes.S j)) s.
Proof. revert i s; induction n as [|n IH]; intros i s; simpl; [reflexivity|]. destruct (f (Datatypes.S i) s); simpl; auto. Qed.

Lemma forn_last {S} n i (f : nat -> S -> res S) s :
  forn (Datatypes.S n) i f s = (t <- forn n i f s ;; f (i + n) t).
Proof.
  revert i s; induction n as [|n IH]; intros i s.
  - simpl. rewrite Nat.add_0_r. destruct (f i s); reflexivity.
  - change (forn (Datatypes.S (Datatypes.S n)) i f s) with (s' <- f i s ;; forn (Datatypes.S n) (Datatypes.S i) f s').
    change (forn (Datatypes.S n) i f s) with (s' <- f i s ;; forn n (Datatypes.S i) f s').
    destruct (f i s); cbn [bind]; auto. rewrite IH. replace (Datatypes.S i + n) with (i + Datatypes.S n) by lia. reflexivity.
Qed.

Lemma kbeg lg l : l < lg -> 2 ^ lg / 2 ^ (l + 1) = 2 ^ (lg - 1 - l).
Proof. intros H. rewrite Nat.add_1_r. change (2 ^ S l) with (2 * 2 ^ l). apply pow2_split; exact H. Qed.

Section P.
Set Default Proof Using "Type".
Variable T : Type.
Variable d : T.

(** The function computed by one in-place layer of 2-point butterflies: position p belongs to block p/(2len). *)
Definition bfly (len : nat) (up lo : nat -> T -> T -> T) (a : list T) (p : nat) : T :=
  let b := p / (2 * len) in
  if p mod (2 * len) <? len then up b (nth p a d) (nth (p + len) a d)
  else lo b (nth (p - len) a d) (nth p a d).

(** A double loop over blocks and positions performing butterflies in place. *)
Lemma layer_loop (len M : nat) (up lo : nat -> T -> T -> T) (body : nat -> nat -> list T -> res (list T))
  (blk : nat -> list T -> res (list T)) (a : list T) :
  0 < len -> length a = M * (2 * len) ->
  (forall b t, b < M -> length t = length a -> blk b t = forn len (b * (2 * len)) (body b) t) ->
  (forall b i t, b < M -> length t = length a -> b * (2 * len) <= i < b * (2 * len) + len ->
     body b i t = Ok (upd (upd t i (up b (nth i t d) (nth (i + len) t d))) (i + len)
                          (lo b (nth i t d) (nth (i + len) t d)))) ->
  forn M 0 blk a = Ok (tab (length a) (bfly len up lo a)).
Proof.
  intros Hlen La Hblk Hbody.
  destruct (forn_inv (fun b t => length t = length a /\
     forall p, p < length a -> nth p t d = if p <? b * (2 * len) then bfly len up lo a p else nth p a d)
     M 0 blk a) as [t [E [L H]]].
  - split; [reflexivity|]. intros p Hp. destruct (Nat.ltb_spec p (0 * (2 * len))); [lia|reflexivity].
  - intros b t Hb [L H]. rewrite Hblk by lia.
    set (s := b * (2 * len)) in *.
    assert (Hs : s + 2 * len <= length a) by (rewrite La; unfold s; nia).
    destruct (forn_inv (fun i t' => length t' = length a /\
       forall p, p < length a -> nth p t' d =
         if (p <? i) || ((s + len <=? p) && (p <? i + len)) then bfly len up lo a p else nth p a d)
       len s (body b) t) as [t' [E' [L' H']]].
    + split; [exact L|]. intros p Hp. rewrite H by exact Hp.
      destruct (Nat.ltb_spec p s), (Nat.leb_spec (s + len) p), (Nat.ltb_spec p (s + len)); simpl; try lia; reflexivity.
    + intros i t' Hi [L' H']. rewrite Hbody by lia.
      eexists; split; [reflexivity|]. split; [rewrite !upd_length; exact L'|].
      assert (Hi' : i = s + (i - s)) by lia.
      assert (N1 : nth i t' d = nth i a d).
      { rewrite H' by lia. destruct (Nat.ltb_spec i i), (Nat.leb_spec (s + len) i), (Nat.ltb_spec i (i + len)); simpl; try lia; reflexivity. }
      assert (N2 : nth (i + len) t' d = nth (i + len) a d).
      { rewrite H' by lia. destruct (Nat.ltb_spec (i + len) i), (Nat.leb_spec (s + len) (i + len)), (Nat.ltb_spec (i + len) (i + len)); simpl; try lia; reflexivity. }
      intros p Hp. rewrite nth_upd by (rewrite upd_length; lia). rewrite nth_upd by lia.
      rewrite N1, N2.
      destruct (Nat.eqb_spec p (i + len)) as [->|Hn1].
      * assert (C : (i + len <? S i) || (s + len <=? i + len) && (i + len <? S i + len) = true).
        { destruct (Nat.leb_spec (s + len) (i + len)), (Nat.ltb_spec (i + len) (S i + len)); lia. }
        rewrite C. unfold bfly.
        assert (Ep : i + len = b * (2 * len) + (i - s + len)) by (unfold s in *; lia).
        assert (Ed : (i + len) / (2 * len) = b) by (rewrite Ep; apply div_block; lia).
        assert (Em : (i + len) mod (2 * len) = i - s + len) by (rewrite Ep at 1; apply mod_block; lia).
        rewrite Ed, Em.
        destruct (Nat.ltb_spec (i - s + len) len); [lia|]. do 2 f_equal; lia.
      * destruct (Nat.eqb_spec p i) as [->|Hn2].
        -- destruct (Nat.ltb_spec i (S i)); [|lia]. cbn [orb]. unfold bfly.
           assert (Ed : i / (2 * len) = b) by (rewrite Hi'; apply div_block; lia).
           assert (Em : i mod (2 * len) = i - s) by (rewrite Hi' at 1; apply mod_block; lia).
           rewrite Ed, Em.
           destruct (Nat.ltb_spec (i - s) len); [|lia]. reflexivity.
        -- rewrite H' by exact Hp.
           destruct (Nat.ltb_spec p i), (Nat.ltb_spec p (S i)), (Nat.leb_spec (s + len) p),
             (Nat.ltb_spec p (i + len)), (Nat.ltb_spec p (S i + len)); simpl; try lia; reflexivity.
    + exists t'. split; [exact E'|]. split; [exact L'|]. intros p Hp. rewrite H' by exact Hp.
      replace (S b * (2 * len)) with (s + 2 * len) by (unfold s; lia).
      destruct (Nat.ltb_spec p (s + len)), (Nat.leb_spec (s + len) p), (Nat.ltb_spec p (s + len + len)),
        (Nat.ltb_spec p (s + 2 * len)); simpl; try lia; reflexivity.
  - rewrite E. f_equal. apply (list_ext d); rewrite L; [rewrite tab_length; reflexivity|].
    intros i Hi. rewrite H by lia. rewrite nth_tab by lia.
    destruct (Nat.ltb_spec i ((0 + M) * (2 * len))); [reflexivity|]. rewrite La in Hi; lia.
Qed.

















End P.

Section PC.
Set Default Proof Using "Type".
Variable T : Type.
Variable d : T.
Variables (mulz subt addt : T -> T -> T) (ztab : list T).

(** Layer l of the forward transform. *)
Definition ctF (lg l : nat) (a : list T) : list T :=
  let len := 2 ^ l in let M := 2 ^ (lg - 1 - l) in
  tab (length a) (bfly T d len
    (fun b x y => addt x (mulz (nth (M + b) ztab d) y))
    (fun b x y => subt x (mulz (nth (M + b) ztab d) y)) a).

Lemma ctF_length lg l a : length (ctF lg l a) = length a.
Proof. apply tab_length. Qed.

Lemma ct_layer_ok lg l a : l < lg -> length a = 2 ^ lg -> 2 ^ lg <= length ztab ->
  ct_layer T mulz subt addt ztab lg l a = Ok (ctF lg l a).
Proof.
  intros Hl La Hz. unfold ct_layer, ctF.
  assert (Hlen := pow2_pos l). assert (Hb := pow2_blocks lg l Hl).
  rewrite pow2_split by exact Hl. set (len := 2 ^ l) in *. set (M := 2 ^ (lg - 1 - l)) in *.
  apply layer_loop with (body := fun b i v => ct_butterfly T mulz subt addt (nth (M + b) ztab d) len i v).
  - exact Hlen.
  - lia.
  - intros b t Hb' Lt. unfold ct_block. rewrite kbeg by exact Hl.
    fold len. fold M. rewrite Nat.add_1_r. change (2 ^ S l) with (2 * len).
    rewrite Nat.div_mul by lia. rewrite (rd_Ok ztab (M + b) d) by nia. reflexivity.
  - intros b i t Hb' Lt Hi. unfold ct_butterfly.
    assert (Hin : i + len < length t) by nia.
    rewrite (rd_Ok t (i + len) d) by lia. cbn [bind]. rewrite (rd_Ok t i d) by lia. cbn [bind].
    rewrite wr_Ok by lia. cbn [bind]. rewrite (rd_Ok _ i d) by (rewrite upd_length; lia). cbn [bind].
    rewrite wr_Ok by (rewrite upd_length; lia).
    rewrite nth_upd by lia. destruct (Nat.eqb_spec i (i + len)); [lia|].
    rewrite upd_upd_comm by lia. reflexivity.
Qed.

Fixpoint ct_iter (lg k : nat) (a : list T) : list T :=
  (* layers k-1, k-2, ..., 0 *)
  match k with O => a | S k' => ct_iter lg k' (ctF lg k' a) end.

Lemma ct_iter_length lg k a : length (ct_iter lg k a) = length a.
Proof. revert a; induction k as [|k IH]; intros a; simpl; [reflexivity|]. rewrite IH. apply ctF_length. Qed.

Lemma ct_ok lg a : length a = 2 ^ lg -> 2 ^ lg <= length ztab ->
  ct T mulz subt addt ztab lg a = Ok (ct_iter lg lg a).
Proof.
  intros La Hz. unfold ct.
  assert (G : forall k a, k <= lg -> length a = 2 ^ lg ->
    forn k (lg - k) (fun j v => ct_layer T mulz subt addt ztab lg (lg - 1 - j) v) a = Ok (ct_iter lg k a)).
  { induction k as [|k IH]; intros a' Hk La'; [reflexivity|]. cbn [forn ct_iter].
    replace (lg - 1 - (lg - S k)) with k by lia. rewrite ct_layer_ok by (auto; lia). cbn [bind].
    replace (S (lg - S k)) with (lg - k) by lia. apply IH; [lia|]. rewrite ctF_length; exact La'. }
  specialize (G lg a (le_n _) La). rewrite Nat.sub_diag in G. exact G.
Qed.

End PC.

Section PG.
Set Default Proof Using "Type".
Variable T : Type.
Variable d : T.
Variables (addi subi muli : T -> T -> T) (nztab : list T).

(** Layer l of the inverse transform. *)
Definition gsF (lg l : nat) (a : list T) : list T :=
  let len := 2 ^ l in let M := 2 ^ (lg - 1 - l) in
  tab (length a) (bfly T d len
    (fun b x y => addi x y)
    (fun b x y => muli (subi x y) (nth (2 * M - 1 - b) nztab d)) a).

Lemma gsF_length lg l a : length (gsF lg l a) = length a.
Proof. apply tab_length. Qed.

Lemma gs_layer_ok lg l a : l < lg -> length a = 2 ^ lg -> 2 ^ lg <= length nztab ->
  gs_layer T addi subi muli nztab lg l a = Ok (gsF lg l a).
Proof.
  intros Hl La Hz. unfold gs_layer, gsF.
  assert (Hlen := pow2_pos l). assert (Hb := pow2_blocks lg l Hl).
  rewrite pow2_split by exact Hl. set (len := 2 ^ l) in *. set (M := 2 ^ (lg - 1 - l)) in *.
  apply layer_loop with (body := fun b i v => gs_butterfly T addi subi muli (nth (2 * M - 1 - b) nztab d) len i v).
  - exact Hlen.
  - lia.
  - intros b t Hb' Lt. unfold gs_block.
    fold len. rewrite Nat.add_1_r. change (2 ^ S l) with (2 * len).
    rewrite Nat.div_mul by lia.
    assert (E : 2 ^ lg / len = 2 * M).
    { rewrite Hb. replace (M * (2 * len)) with (2 * M * len) by lia. apply Nat.div_mul; lia. }
    rewrite E. rewrite (rd_Ok nztab (2 * M - 1 - b) d) by nia. reflexivity.
  - intros b i t Hb' Lt Hi. unfold gs_butterfly.
    assert (Hin : i + len < length t) by nia.
    rewrite (rd_Ok t i d), (rd_Ok t (i + len) d) by lia. cbn [bind].
    rewrite wr_Ok by lia. cbn [bind]. rewrite (rd_Ok _ (i + len) d) by (rewrite upd_length; lia). cbn [bind].
    rewrite wr_Ok by (rewrite upd_length; lia). cbn [bind].
    rewrite (rd_Ok _ (i + len) d) by (rewrite !upd_length; lia). cbn [bind].
    rewrite wr_Ok by (rewrite !upd_length; lia).
    rewrite upd_upd_same. rewrite nth_upd by (rewrite upd_length; lia).
    rewrite Nat.eqb_refl. rewrite nth_upd by lia. destruct (Nat.eqb_spec (i + len) i); [lia|]. reflexivity.
Qed.

Fixpoint gs_iter (lg k : nat) (a : list T) : list T :=
  (* layers 0, 1, ..., k-1 *)
  match k with O => a | S k' => gsF lg k' (gs_iter lg k' a) end.

Lemma gs_iter_length lg k a : length (gs_iter lg k a) = length a.
Proof. induction k as [|k IH]; simpl; [reflexivity|]. rewrite gsF_length. exact IH. Qed.

Lemma gs_ok (scal : T -> T) lg a : length a = 2 ^ lg -> 2 ^ lg <= length nztab ->
  gs T addi subi muli nztab scal lg a = Ok (map scal (gs_iter lg lg a)).
Proof.
  intros La Hz. unfold gs.
  assert (G : forall k, k <= lg -> forn k 0 (fun l v => gs_layer T addi subi muli nztab lg l v) a = Ok (gs_iter lg k a)).
  { induction k as [|k IH]; intros Hk; [reflexivity|]. rewrite forn_last, IH by lia. cbn [bind gs_iter Nat.add].
    apply gs_layer_ok; auto; try lia. rewrite gs_iter_length; exact La. }
  rewrite G by lia. cbn [bind]. rewrite scale_mapw. apply mapw_ok. rewrite gs_iter_length; auto.
Qed.

End PG.
