(** P_codec.v -- key codecs: group loops, packing identities, round trips. *)
From Coq Require Import ZifyBool ZifyNat.
From Verif Require Import Base Spec M_ff M_codec.
Open Scope Z_scope.

Definition slice {A} (l : list A) (o n : nat) : list A := firstn n (skipn o l).
Definition blocks {A} (n : nat) (f : nat -> list A) : list A := concat (map f (seq 0 n)).

Lemma slice_length {A} (l : list A) o n : (o + n <= length l)%nat -> length (slice l o n) = n.
Proof. intros H. unfold slice. rewrite firstn_length, skipn_length. lia. Qed.

Lemma skipn_S {A} (l : list A) o d : (o < length l)%nat -> skipn o l = nth o l d :: skipn (S o) l.
Proof.
  revert o; induction l as [|h l IH]; intros o H; simpl in H; [lia|].
  destruct o; [reflexivity|]. apply (IH o). lia.
Qed.

Lemma skipn_skipn {A} x : forall y (l : list A), skipn x (skipn y l) = skipn (x + y) l.
Proof.
  intros y; revert x. induction y as [|y IH]; intros x l; [rewrite Nat.add_0_r; reflexivity|].
  rewrite Nat.add_succ_r. destruct l as [|h l]; [rewrite !skipn_nil; reflexivity|]. apply IH.
Qed.

Lemma rds_ok {A} (l : list A) n : forall o, (o + n <= length l)%nat -> rds l o n = Ok (slice l o n).
Proof.
  induction n as [|n IH]; intros o H; [reflexivity|].
  destruct l as [|d l0] eqn:El; [simpl in H; lia|]. rewrite <- El in *. clear El l0.
  cbn [rds]. rewrite (rd_Ok l o d) by lia. cbn [bind]. rewrite IH by lia. cbn [bind].
  unfold slice. rewrite (skipn_S l o d) by lia. reflexivity.
Qed.

Lemma upd_app {A} (x : list A) a y v : upd (x ++ a :: y) (length x) v = x ++ v :: y.
Proof. induction x as [|h x IH]; simpl; [reflexivity|]. rewrite IH; reflexivity. Qed.

Lemma wrs_app {A} (vs : list A) : forall x y z, length y = length vs -> wrs (x ++ y ++ z) (length x) vs = Ok (x ++ vs ++ z).
Proof.
  induction vs as [|v vs IH]; intros x y z H; [destruct y; [reflexivity|discriminate]|].
  destruct y as [|a y]; [discriminate|]. cbn [wrs app].
  rewrite wr_Ok by (rewrite app_length; simpl; lia). cbn [bind]. rewrite upd_app.
  replace (S (length x)) with (length (x ++ [v])) by (rewrite app_length; simpl; lia).
  replace (x ++ v :: y ++ z) with ((x ++ [v]) ++ y ++ z) by (rewrite <- app_assoc; reflexivity).
  rewrite IH by (simpl in H; lia). rewrite <- app_assoc. reflexivity.
Qed.

Lemma wrs_ok {A} (l : list A) o vs : (o + length vs <= length l)%nat ->
  wrs l o vs = Ok (firstn o l ++ vs ++ skipn (o + length vs) l).
Proof.
  intros H.
  assert (E : l = firstn o l ++ firstn (length vs) (skipn o l) ++ skipn (o + length vs) l).
  { rewrite <- (firstn_skipn o l) at 1. f_equal. rewrite <- (firstn_skipn (length vs) (skipn o l)) at 1. f_equal.
    rewrite skipn_skipn. f_equal. lia. }
  assert (W := wrs_app vs (firstn o l) (firstn (length vs) (skipn o l)) (skipn (o + length vs) l)).
  rewrite <- E in W. rewrite (firstn_length o), Nat.min_l in W by lia.
  apply W. rewrite firstn_length, skipn_length. lia.
Qed.

Lemma wrs_all {A} (l vs : list A) : length l = length vs -> wrs l 0 vs = Ok vs.
Proof.
  intros H. rewrite wrs_ok by lia. simpl. rewrite skipn_all2 by lia. rewrite app_nil_r. reflexivity.
Qed.

Lemma blocks_S {A} n (f : nat -> list A) : blocks (S n) f = blocks n f ++ f n.
Proof. unfold blocks. rewrite seq_S, map_app, concat_app. simpl. rewrite app_nil_r. reflexivity. Qed.

Lemma blocks_length {A} n b (f : nat -> list A) : (forall i, (i < n)%nat -> length (f i) = b) -> length (blocks n f) = (b * n)%nat.
Proof.
  induction n as [|n IH]; intros H; [simpl; lia|]. rewrite blocks_S, app_length, IH, H by (intros; try apply H; lia). lia.
Qed.

Lemma blocks_ext {A} n (f g : nat -> list A) : (forall i, (i < n)%nat -> f i = g i) -> blocks n f = blocks n g.
Proof. intros H. unfold blocks. f_equal. apply map_ext_in. intros i Hi. apply in_seq in Hi. apply H; lia. Qed.

Lemma slice_app1 {A} (x y : list A) o n : (o + n <= length x)%nat -> slice (x ++ y) o n = slice x o n.
Proof.
  intros H. unfold slice. rewrite skipn_app, firstn_app, skipn_length.
  replace (n - (length x - o))%nat with 0%nat by lia. simpl. apply app_nil_r.
Qed.

Lemma slice_app2 {A} (x y : list A) o n : slice (x ++ y) (length x + o) n = slice y o n.
Proof.
  unfold slice. rewrite skipn_app. rewrite skipn_all2 by lia. simpl. f_equal. f_equal. lia.
Qed.

Lemma slice_all {A} (x : list A) n : length x = n -> slice x 0 n = x.
Proof. intros <-. unfold slice. simpl. apply firstn_all. Qed.

Lemma slice_blocks {A} n b (f : nat -> list A) i : (forall i, (i < n)%nat -> length (f i) = b) -> (i < n)%nat ->
  slice (blocks n f) (b * i) b = f i.
Proof.
  intros H. induction n as [|n IH]; intros Hi; [lia|]. rewrite blocks_S.
  assert (L : length (blocks n f) = (b * n)%nat) by (apply blocks_length; intros; apply H; lia).
  destruct (Nat.eq_dec i n) as [->|Hn].
  - replace (b * n)%nat with (length (blocks n f) + 0)%nat by lia. rewrite slice_app2. apply slice_all. apply H; lia.
  - rewrite slice_app1. apply IH; [intros; apply H; lia|lia]. rewrite L. nia.
Qed.

Lemma slice_cat {A} (l : list A) o n m : slice l o (n + m) = slice l o n ++ slice l (o + n) m.
Proof.
  unfold slice. replace (o + n)%nat with (n + o)%nat by lia. rewrite <- skipn_skipn.
  generalize (skipn o l) as k. clear. revert m. induction n as [|n IH]; intros m k; [reflexivity|].
  destruct k as [|h k]; [simpl; rewrite firstn_nil; reflexivity|]. simpl. f_equal. apply IH.
Qed.

Lemma blocks_slice {A} (l : list A) a o n : blocks n (fun i => slice l (o + a * i) a) = slice l o (a * n).
Proof.
  induction n as [|n IH]; [rewrite Nat.mul_0_r; reflexivity|]. rewrite blocks_S, IH.
  replace (a * S n)%nat with (a * n + a)%nat by lia. rewrite slice_cat. reflexivity.
Qed.

Lemma Forall_slice {A} (P : A -> Prop) l o n : Forall P l -> Forall P (slice l o n).
Proof.
  intros H. rewrite Forall_forall in *. intros x Hx. apply H.
  unfold slice in Hx. rewrite <- (firstn_skipn o l). apply in_or_app. right.
  rewrite <- (firstn_skipn n (skipn o l)). apply in_or_app. left. exact Hx.
Qed.

Lemma Forall_blocks {A} (P : A -> Prop) n (f : nat -> list A) : (forall i, (i < n)%nat -> Forall P (f i)) -> Forall P (blocks n f).
Proof.
  induction n as [|n IH]; intros H; [constructor|]. rewrite blocks_S. apply Forall_app. split; [apply IH|]; intros; apply H; lia.
Qed.

Lemma group_map_ok a b n soff doff op src dst :
  (soff + a * n <= length src)%nat -> (doff + b * n <= length dst)%nat ->
  (forall i, (i < n)%nat -> length (op (slice src (soff + a * i) a)) = b) ->
  group_map a b n soff doff op src dst =
  Ok (firstn doff dst ++ blocks n (fun i => op (slice src (soff + a * i) a)) ++ skipn (doff + b * n) dst).
Proof.
  intros Hs Hd Hop. unfold group_map.
  destruct (forn_inv (fun i d => d = firstn doff dst ++ blocks i (fun i => op (slice src (soff + a * i) a)) ++ skipn (doff + b * i) dst)
    n 0 (fun i d => xs <- rds src (soff + a * i) a ;; wrs d (doff + b * i) (op xs)) dst) as (t & E & ->).
  - rewrite Nat.mul_0_r, Nat.add_0_r. unfold blocks; simpl. symmetry. apply firstn_skipn.
  - intros j t Hj ->. rewrite rds_ok by nia. cbn [bind].
    set (B := blocks j _). assert (LB : length B = (b * j)%nat) by (apply blocks_length; intros; apply Hop; lia).
    assert (LF : length (firstn doff dst) = doff) by (rewrite firstn_length; lia).
    assert (Hb : (b * j + b <= b * n)%nat) by nia.
    rewrite wrs_ok by (rewrite !app_length, skipn_length, Hop, LF, LB by lia; lia).
    eexists; split; [reflexivity|].
    rewrite blocks_S. fold B. rewrite Hop by lia.
    rewrite !app_assoc. set (X := firstn doff dst ++ B). assert (LX : length X = (doff + b * j)%nat) by (unfold X; rewrite app_length; lia).
    rewrite firstn_app. replace (doff + b * j - length X)%nat with 0%nat by lia. simpl firstn at 2.
    rewrite app_nil_r, firstn_all2 by lia. rewrite skipn_app.
    rewrite skipn_all2 by lia. simpl app at 3. rewrite skipn_skipn.
    replace (doff + b * j + b - length X + (doff + b * j))%nat with (doff + b * S j)%nat by lia. reflexivity.
  - rewrite Nat.add_0_l in *. exact E.
Qed.

(** Whole-array form: dst is overwritten entirely. *)
Lemma group_map_all a b n soff op src dst :
  (soff + a * n <= length src)%nat -> length dst = (b * n)%nat ->
  (forall i, (i < n)%nat -> length (op (slice src (soff + a * i) a)) = b) ->
  group_map a b n soff 0 op src dst = Ok (blocks n (fun i => op (slice src (soff + a * i) a))).
Proof.
  intros Hs Hd Hop. rewrite group_map_ok by (auto; lia). rewrite skipn_all2 by lia. simpl. rewrite app_nil_r. reflexivity.
Qed.

(** ** Bit tricks as arithmetic *)
Lemma lor_add a b k : 0 <= k -> 0 <= b < 2 ^ k -> Z.lor (Z.shiftl a k) b = a * 2 ^ k + b.
Proof.
  intros Hk Hb. rewrite <- Z.shiftl_mul_pow2 by exact Hk.
  assert (L : Z.land (Z.shiftl a k) b = 0).
  { apply Z.bits_inj'. intros n Hn. rewrite Z.land_spec, Z.bits_0.
    destruct (Z.lt_ge_cases n k) as [H|H].
    - rewrite Z.shiftl_spec_low by exact H. reflexivity.
    - destruct (Z.eq_dec b 0) as [->|H0]; [rewrite Z.bits_0; apply andb_false_r|].
      rewrite (Z.bits_above_log2 b n); [apply andb_false_r|lia|].
      apply Z.lt_le_trans with k; [|exact H]. apply Z.log2_lt_pow2; lia. }
  rewrite <- Z.lxor_lor by exact L. symmetry. apply Z.add_nocarry_lxor. exact L.
Qed.

Lemma land_mask k m x : m = Z.ones k -> 0 <= k -> Z.land x m = x mod 2 ^ k.
Proof. intros -> Hk. apply Z.land_ones; exact Hk. Qed.

Ltac Zify.zify_post_hook ::= Z.div_mod_to_equations.

(** normalise masks, shifts and (disjoint) ors into arithmetic *)
Ltac arith_masks :=
  unfold shl, shr, u8, u16;
  rewrite ?(land_mask 1 1), ?(land_mask 2 3), ?(land_mask 3 7), ?(land_mask 4 15), ?(land_mask 5 31), ?(land_mask 6 63) by (reflexivity || lia);
  rewrite ?Z.shiftl_0_r;
  rewrite ?Z.shiftr_div_pow2 by lia;
  change (2 ^ 1) with 2; change (2 ^ 2) with 4; change (2 ^ 3) with 8; change (2 ^ 4) with 16; change (2 ^ 5) with 32;
  change (2 ^ 6) with 64; change (2 ^ 7) with 128; change (2 ^ 8) with 256; change (2 ^ 10) with 1024; change (2 ^ 12) with 4096.
Ltac arith_lor :=
  repeat match goal with
  | |- context [Z.lor (Z.shiftl ?a ?k) ?b] => rewrite (lor_add a b k) by (try lia; cbv [Z.pow Z.pow_pos Pos.iter Z.mul Pos.mul]; lia)
  end.

Definition pk_bytes (h0 h1 h2 h3 : Z) : list Z :=
  [ h0 mod 256; (h1 mod 4) * 64 + h0 / 256; (h1 / 4) mod 256; (h2 mod 16) * 16 + h1 / 1024;
    (h2 / 16) mod 256; (h3 mod 64) * 4 + h2 / 4096; h3 / 64 ].

Lemma lt14_range x : lt14 x <-> 0 <= x < 16384.
Proof. unfold lt14. change (2 ^ 14) with 16384. tauto. Qed.

Lemma list_eq_cons {A} (a b : A) l m : a = b -> l = m -> a :: l = b :: m.
Proof. intros -> ->; reflexivity. Qed.

Lemma pk_pack_bytes h0 h1 h2 h3 : lt14 h0 -> lt14 h1 -> lt14 h2 -> lt14 h3 ->
  pk_pack [h0; h1; h2; h3] = pk_bytes h0 h1 h2 h3.
Proof.
  rewrite !lt14_range. intros H0 H1 H2 H3. unfold pk_pack, pk_bytes. arith_masks.
  repeat apply list_eq_cons; try reflexivity; try (arith_lor; change (2 ^ 6) with 64; change (2 ^ 4) with 16; change (2 ^ 2) with 4; lia).
Qed.

Lemma pk_unpack_pack h0 h1 h2 h3 : lt14 h0 -> lt14 h1 -> lt14 h2 -> lt14 h3 ->
  pk_unpack (pk_pack [h0; h1; h2; h3]) = [h0; h1; h2; h3].
Proof.
  intros H0 H1 H2 H3. rewrite pk_pack_bytes by assumption. revert H0 H1 H2 H3. rewrite !lt14_range. intros.
  unfold pk_unpack, pk_bytes. arith_masks.
  repeat apply list_eq_cons; try reflexivity.
  - rewrite lor_add by (change (2 ^ 8) with 256; lia). change (2 ^ 8) with 256. lia.
  - rewrite <- Z.lor_assoc. rewrite (lor_add _ _ 2) by (change (2 ^ 2) with 4; lia). change (2 ^ 2) with 4.
    rewrite lor_add by (change (2 ^ 10) with 1024; lia). change (2 ^ 10) with 1024. lia.
  - rewrite <- Z.lor_assoc. rewrite (lor_add _ _ 4) by (change (2 ^ 4) with 16; lia). change (2 ^ 4) with 16.
    rewrite lor_add by (change (2 ^ 12) with 4096; lia). change (2 ^ 12) with 4096. lia.
  - rewrite lor_add by (change (2 ^ 6) with 64; lia). change (2 ^ 6) with 64. lia.
Qed.

Definition pk_coeffs (p0 p1 p2 p3 p4 p5 p6 : Z) : list Z :=
  [ (p1 mod 64) * 256 + p0; (p3 mod 16) * 1024 + p2 * 4 + p1 / 64; (p5 mod 4) * 4096 + p4 * 16 + p3 / 16; p6 * 64 + p5 / 4 ].

Lemma pk_unpack_coeffs p0 p1 p2 p3 p4 p5 p6 :
  byte p0 -> byte p1 -> byte p2 -> byte p3 -> byte p4 -> byte p5 -> byte p6 ->
  pk_unpack [p0; p1; p2; p3; p4; p5; p6] = pk_coeffs p0 p1 p2 p3 p4 p5 p6.
Proof.
  unfold byte. intros. unfold pk_unpack, pk_coeffs. arith_masks.
  repeat apply list_eq_cons; try reflexivity.
  - rewrite lor_add by (change (2 ^ 8) with 256; lia). change (2 ^ 8) with 256. lia.
  - rewrite <- Z.lor_assoc. rewrite (lor_add _ _ 2) by (change (2 ^ 2) with 4; lia). change (2 ^ 2) with 4.
    rewrite lor_add by (change (2 ^ 10) with 1024; lia). change (2 ^ 10) with 1024. lia.
  - rewrite <- Z.lor_assoc. rewrite (lor_add _ _ 4) by (change (2 ^ 4) with 16; lia). change (2 ^ 4) with 16.
    rewrite lor_add by (change (2 ^ 12) with 4096; lia). change (2 ^ 12) with 4096. lia.
  - rewrite lor_add by (change (2 ^ 6) with 64; lia). change (2 ^ 6) with 64. lia.
Qed.

Lemma pk_coeffs_lt14 p0 p1 p2 p3 p4 p5 p6 :
  byte p0 -> byte p1 -> byte p2 -> byte p3 -> byte p4 -> byte p5 -> byte p6 ->
  Forall lt14 (pk_coeffs p0 p1 p2 p3 p4 p5 p6).
Proof. unfold byte. intros. unfold pk_coeffs. repeat constructor; change (2 ^ 14) with 16384; lia. Qed.

Lemma pk_pack_unpack p0 p1 p2 p3 p4 p5 p6 :
  byte p0 -> byte p1 -> byte p2 -> byte p3 -> byte p4 -> byte p5 -> byte p6 ->
  pk_pack (pk_unpack [p0; p1; p2; p3; p4; p5; p6]) = [p0; p1; p2; p3; p4; p5; p6].
Proof.
  intros. rewrite pk_unpack_coeffs by assumption.
  assert (F := pk_coeffs_lt14 p0 p1 p2 p3 p4 p5 p6 H H0 H1 H2 H3 H4 H5). unfold pk_coeffs in *.
  repeat match goal with F : Forall _ (_ :: _) |- _ => apply Forall_cons_iff in F; destruct F as [? F] end.
  rewrite pk_pack_bytes by assumption. unfold pk_bytes. unfold byte in *.
  repeat apply list_eq_cons; try reflexivity; lia.
Qed.

(** ** Secret key groups *)

Lemma sk_u8_mod w x : 0 < w -> w mod 2 = 0 -> w <= 256 -> fits w x -> sk_u8 w x = x mod w.
Proof.
  unfold fits, sk_u8, u8, b2z. intros Hw He Hm Hx. destruct (Z.ltb_spec x 0) as [H|H].
  - rewrite (Z.mod_small (1 * w + x)) by lia. rewrite <- (Z.mod_add x 1 w) by lia. rewrite Z.mod_small; lia.
  - rewrite Z.mod_small by lia. rewrite (Z.mod_small x w); lia.
Qed.

Lemma sk_sign_mod w x : 0 < w -> w mod 2 = 0 -> fits w x -> sk_sign w (x mod w) = x.
Proof.
  unfold fits, sk_sign, b2z. intros Hw He Hx. rewrite Z.gtb_ltb.
  destruct (Z.lt_ge_cases x 0) as [H|H].
  - replace (x mod w) with (x + w) by (rewrite <- (Z.mod_add x 1 w) by lia; rewrite Z.mod_small; lia).
    destruct (Z.ltb_spec (w / 2 - 1) (x + w)); lia.
  - rewrite (Z.mod_small x w) by lia. destruct (Z.ltb_spec (w / 2 - 1) x); lia.
Qed.

Lemma sk_sign_fits w x : 0 < w -> w mod 2 = 0 -> 0 <= x < w -> fits w (sk_sign w x) /\ (sk_sign w x) mod w = x.
Proof.
  unfold fits, sk_sign, b2z. intros Hw He Hx. rewrite Z.gtb_ltb.
  destruct (Z.ltb_spec (w / 2 - 1) x).
  - split; [lia|]. replace (x - 1 * w) with (x + (-1) * w) by lia. rewrite Z.mod_add by lia. apply Z.mod_small; lia.
  - split; [lia|]. replace (x - 0 * w) with x by lia. apply Z.mod_small; lia.
Qed.

Definition bytes6 (f0 f1 f2 f3 : Z) : list Z :=
  [ (f1 mod 4) * 64 + f0; (f2 mod 16) * 16 + f1 / 4; f3 * 4 + f2 / 16 ].
Definition bytes5 (f0 f1 f2 f3 f4 f5 f6 f7 : Z) : list Z :=
  [ (f1 mod 8) * 32 + f0; (f3 mod 2) * 128 + f2 * 4 + f1 / 8; (f4 mod 16) * 16 + f3 / 2;
    (f6 mod 4) * 64 + f5 * 2 + f4 / 16; f7 * 8 + f6 / 4 ].

Lemma pack6_arith f0 f1 f2 f3 : 0 <= f0 < 64 -> 0 <= f1 < 64 -> 0 <= f2 < 64 -> 0 <= f3 < 64 ->
  [ u8 (shl f1 6 .| f0); u8 (shl f2 4 .| shr f1 2); u8 (shl f3 2 .| shr f2 4) ] = bytes6 f0 f1 f2 f3.
Proof.
  intros. unfold bytes6. arith_masks. repeat apply list_eq_cons; try reflexivity.
  - rewrite lor_add by (change (2 ^ 6) with 64; lia). change (2 ^ 6) with 64. lia.
  - rewrite lor_add by (change (2 ^ 4) with 16; lia). change (2 ^ 4) with 16. lia.
  - rewrite lor_add by (change (2 ^ 2) with 4; lia). change (2 ^ 2) with 4. lia.
Qed.

Lemma pack5_arith f0 f1 f2 f3 f4 f5 f6 f7 : 0 <= f0 < 32 -> 0 <= f1 < 32 -> 0 <= f2 < 32 -> 0 <= f3 < 32 ->
  0 <= f4 < 32 -> 0 <= f5 < 32 -> 0 <= f6 < 32 -> 0 <= f7 < 32 ->
  [ u8 (shl f1 5 .| f0); u8 (shl f3 7 .| shl f2 2 .| shr f1 3); u8 (shl f4 4 .| shr f3 1);
    u8 (shl f6 6 .| shl f5 1 .| shr f4 4); u8 (shl f7 3 .| shr f6 2) ] = bytes5 f0 f1 f2 f3 f4 f5 f6 f7.
Proof.
  intros. unfold bytes5. arith_masks. repeat apply list_eq_cons; try reflexivity.
  - rewrite lor_add by (change (2 ^ 5) with 32; lia). change (2 ^ 5) with 32. lia.
  - rewrite <- Z.lor_assoc. rewrite (lor_add _ _ 2) by (change (2 ^ 2) with 4; lia). change (2 ^ 2) with 4.
    rewrite lor_add by (change (2 ^ 7) with 128; lia). change (2 ^ 7) with 128. lia.
  - rewrite lor_add by (change (2 ^ 4) with 16; lia). change (2 ^ 4) with 16. lia.
  - rewrite <- Z.lor_assoc. rewrite (lor_add _ _ 1) by (change (2 ^ 1) with 2; lia). change (2 ^ 1) with 2.
    rewrite lor_add by (change (2 ^ 6) with 64; lia). change (2 ^ 6) with 64. lia.
  - rewrite lor_add by (change (2 ^ 3) with 8; lia). change (2 ^ 3) with 8. lia.
Qed.

Lemma unpack6_arith s0 s1 s2 : byte s0 -> byte s1 -> byte s2 ->
  [ s0 .& 63; shl (s1 .& 15) 2 .| shr s0 6; shl (s2 .& 3) 4 .| shr s1 4; shr s2 2 ]
  = [ s0 mod 64; (s1 mod 16) * 4 + s0 / 64; (s2 mod 4) * 16 + s1 / 16; s2 / 4 ].
Proof.
  unfold byte. intros. arith_masks. repeat apply list_eq_cons; try reflexivity.
  - rewrite lor_add by (change (2 ^ 2) with 4; lia). reflexivity.
  - rewrite lor_add by (change (2 ^ 4) with 16; lia). reflexivity.
Qed.

Lemma unpack5_arith s0 s1 s2 s3 s4 : byte s0 -> byte s1 -> byte s2 -> byte s3 -> byte s4 ->
  [ s0 .& 31; shl (s1 .& 3) 3 .| shr s0 5; shr s1 2 .& 31; shl (s2 .& 15) 1 .| shr s1 7;
      shl (s3 .& 1) 4 .| shr s2 4; shr s3 1 .& 31; shl (s4 .& 7) 2 .| shr s3 6; shr s4 3 ]
  = [ s0 mod 32; (s1 mod 4) * 8 + s0 / 32; (s1 / 4) mod 32; (s2 mod 16) * 2 + s1 / 128;
      (s3 mod 2) * 16 + s2 / 16; (s3 / 2) mod 32; (s4 mod 8) * 4 + s3 / 64; s4 / 8 ].
Proof.
  unfold byte. intros. arith_masks. repeat apply list_eq_cons; try reflexivity.
  - rewrite lor_add by (change (2 ^ 3) with 8; lia). reflexivity.
  - rewrite lor_add by (change (2 ^ 1) with 2; lia). reflexivity.
  - rewrite lor_add by (change (2 ^ 4) with 16; lia). reflexivity.
  - rewrite lor_add by (change (2 ^ 2) with 4; lia). reflexivity.
Qed.

Ltac len_cases l H :=
  repeat (let x := fresh "x" in destruct l as [|x l]; [discriminate H|]);
  destruct l; [clear H|discriminate H].

Lemma modb w x : 0 < w -> 0 <= x mod w < w.
Proof. intros H. apply Z.mod_pos_bound; exact H. Qed.

Lemma sk6_round f : length f = 4%nat -> Forall (fits 64) f ->
  length (sk_pack6 f) = 3%nat /\ bytes (sk_pack6 f) /\ sk_unpack6 (sk_pack6 f) = f.
Proof.
  intros L H. len_cases f L.
  repeat match goal with F : Forall _ (_ :: _) |- _ => apply Forall_cons_iff in F; destruct F as [? F] end.
  split; [reflexivity|]. unfold sk_pack6. rewrite !sk_u8_mod by (assumption || lia || reflexivity).
  assert (B0 := modb 64 x ltac:(lia)). assert (B1 := modb 64 x0 ltac:(lia)). assert (B2 := modb 64 x1 ltac:(lia)). assert (B3 := modb 64 x2 ltac:(lia)).
  cbv zeta. rewrite pack6_arith by assumption.
  assert (By : bytes (bytes6 (x mod 64) (x0 mod 64) (x1 mod 64) (x2 mod 64))).
  { generalize dependent (x mod 64). generalize dependent (x0 mod 64). generalize dependent (x1 mod 64). generalize dependent (x2 mod 64).
    clear. intros. unfold bytes6, bytes, byte. repeat constructor; lia. }
  split; [exact By|]. unfold bytes6 in *. unfold sk_unpack6.
  unfold bytes in By. repeat match goal with F : Forall _ (_ :: _) |- _ => apply Forall_cons_iff in F; destruct F as [? F] end.
  rewrite unpack6_arith by assumption.
  transitivity (map (sk_sign 64) [x mod 64; x0 mod 64; x1 mod 64; x2 mod 64]).
  - f_equal. clear - B0 B1 B2 B3.
    generalize dependent (x mod 64). generalize dependent (x0 mod 64). generalize dependent (x1 mod 64). generalize dependent (x2 mod 64).
    intros. repeat apply list_eq_cons; try reflexivity; lia.
  - simpl. rewrite !sk_sign_mod by (assumption || lia || reflexivity). reflexivity.
Qed.

Lemma sk5_round f : length f = 8%nat -> Forall (fits 32) f ->
  length (sk_pack5 f) = 5%nat /\ bytes (sk_pack5 f) /\ sk_unpack5 (sk_pack5 f) = f.
Proof.
  intros L H. len_cases f L.
  repeat match goal with F : Forall _ (_ :: _) |- _ => apply Forall_cons_iff in F; destruct F as [? F] end.
  split; [reflexivity|]. unfold sk_pack5. rewrite !sk_u8_mod by (assumption || lia || reflexivity).
  assert (B0 := modb 32 x ltac:(lia)). assert (B1 := modb 32 x0 ltac:(lia)). assert (B2 := modb 32 x1 ltac:(lia)). assert (B3 := modb 32 x2 ltac:(lia)).
  assert (B4 := modb 32 x3 ltac:(lia)). assert (B5 := modb 32 x4 ltac:(lia)). assert (B6 := modb 32 x5 ltac:(lia)). assert (B7 := modb 32 x6 ltac:(lia)).
  cbv zeta. rewrite pack5_arith by assumption.
  assert (By : bytes (bytes5 (x mod 32) (x0 mod 32) (x1 mod 32) (x2 mod 32) (x3 mod 32) (x4 mod 32) (x5 mod 32) (x6 mod 32))).
  { generalize dependent (x mod 32). generalize dependent (x0 mod 32). generalize dependent (x1 mod 32). generalize dependent (x2 mod 32).
    generalize dependent (x3 mod 32). generalize dependent (x4 mod 32). generalize dependent (x5 mod 32). generalize dependent (x6 mod 32).
    clear. intros. unfold bytes5, bytes, byte. repeat constructor; lia. }
  split; [exact By|]. unfold bytes5 in *. unfold sk_unpack5.
  unfold bytes in By. repeat match goal with F : Forall _ (_ :: _) |- _ => apply Forall_cons_iff in F; destruct F as [? F] end.
  rewrite unpack5_arith by assumption.
  transitivity (map (sk_sign 32) [x mod 32; x0 mod 32; x1 mod 32; x2 mod 32; x3 mod 32; x4 mod 32; x5 mod 32; x6 mod 32]).
  - f_equal. clear - B0 B1 B2 B3 B4 B5 B6 B7.
    generalize dependent (x mod 32). generalize dependent (x0 mod 32). generalize dependent (x1 mod 32). generalize dependent (x2 mod 32).
    generalize dependent (x3 mod 32). generalize dependent (x4 mod 32). generalize dependent (x5 mod 32). generalize dependent (x6 mod 32).
    intros. repeat apply list_eq_cons; try reflexivity; lia.
  - simpl. rewrite !sk_sign_mod by (assumption || lia || reflexivity). reflexivity.
Qed.

Lemma sk6_back s : length s = 3%nat -> bytes s ->
  length (sk_unpack6 s) = 4%nat /\ Forall (fits 64) (sk_unpack6 s) /\ sk_pack6 (sk_unpack6 s) = s.
Proof.
  intros L H. len_cases s L. unfold bytes in H.
  repeat match goal with F : Forall _ (_ :: _) |- _ => apply Forall_cons_iff in F; destruct F as [? F] end.
  split; [reflexivity|]. unfold sk_unpack6. rewrite unpack6_arith by assumption. unfold byte in *.
  set (a0 := x mod 64). set (a1 := (x0 mod 16) * 4 + x / 64). set (a2 := (x1 mod 4) * 16 + x0 / 16). set (a3 := x1 / 4).
  assert (B0 : 0 <= a0 < 64) by lia. assert (B1 : 0 <= a1 < 64) by lia. assert (B2 : 0 <= a2 < 64) by lia. assert (B3 : 0 <= a3 < 64) by lia.
  cbn [map].
  destruct (sk_sign_fits 64 a0) as [F0 M0]; [lia|reflexivity|exact B0|].
  destruct (sk_sign_fits 64 a1) as [F1 M1]; [lia|reflexivity|exact B1|].
  destruct (sk_sign_fits 64 a2) as [F2 M2]; [lia|reflexivity|exact B2|].
  destruct (sk_sign_fits 64 a3) as [F3 M3]; [lia|reflexivity|exact B3|].
  split; [repeat (apply Forall_cons; [assumption|]); apply Forall_nil|]. unfold sk_pack6.
  rewrite !sk_u8_mod by (assumption || lia || reflexivity). rewrite M0, M1, M2, M3. cbv zeta.
  rewrite pack6_arith by assumption. unfold bytes6, a0, a1, a2, a3. clear - H0 H1 H2 H.
  repeat apply list_eq_cons; try reflexivity; lia.
Qed.

Lemma sk5_back s : length s = 5%nat -> bytes s ->
  length (sk_unpack5 s) = 8%nat /\ Forall (fits 32) (sk_unpack5 s) /\ sk_pack5 (sk_unpack5 s) = s.
Proof.
  intros L H. len_cases s L. unfold bytes in H.
  repeat match goal with F : Forall _ (_ :: _) |- _ => apply Forall_cons_iff in F; destruct F as [? F] end.
  split; [reflexivity|]. unfold sk_unpack5. rewrite unpack5_arith by assumption. unfold byte in *.
  set (a0 := x mod 32). set (a1 := (x0 mod 4) * 8 + x / 32). set (a2 := (x0 / 4) mod 32). set (a3 := (x1 mod 16) * 2 + x0 / 128).
  set (a4 := (x2 mod 2) * 16 + x1 / 16). set (a5 := (x2 / 2) mod 32). set (a6 := (x3 mod 8) * 4 + x2 / 64). set (a7 := x3 / 8).
  assert (B0 : 0 <= a0 < 32) by lia. assert (B1 : 0 <= a1 < 32) by lia. assert (B2 : 0 <= a2 < 32) by lia. assert (B3 : 0 <= a3 < 32) by lia.
  assert (B4 : 0 <= a4 < 32) by lia. assert (B5 : 0 <= a5 < 32) by lia. assert (B6 : 0 <= a6 < 32) by lia. assert (B7 : 0 <= a7 < 32) by lia.
  cbn [map].
  destruct (sk_sign_fits 32 a0) as [F0 M0]; [lia|reflexivity|exact B0|].
  destruct (sk_sign_fits 32 a1) as [F1 M1]; [lia|reflexivity|exact B1|].
  destruct (sk_sign_fits 32 a2) as [F2 M2]; [lia|reflexivity|exact B2|].
  destruct (sk_sign_fits 32 a3) as [F3 M3]; [lia|reflexivity|exact B3|].
  destruct (sk_sign_fits 32 a4) as [F4 M4]; [lia|reflexivity|exact B4|].
  destruct (sk_sign_fits 32 a5) as [F5 M5]; [lia|reflexivity|exact B5|].
  destruct (sk_sign_fits 32 a6) as [F6 M6]; [lia|reflexivity|exact B6|].
  destruct (sk_sign_fits 32 a7) as [F7 M7]; [lia|reflexivity|exact B7|].
  split; [repeat (apply Forall_cons; [assumption|]); apply Forall_nil|]. unfold sk_pack5.
  rewrite !sk_u8_mod by (assumption || lia || reflexivity). rewrite M0, M1, M2, M3, M4, M5, M6, M7. cbv zeta.
  rewrite pack5_arith by assumption. unfold bytes5, a0, a1, a2, a3, a4, a5, a6, a7. clear - H0 H1 H2 H3 H4 H.
  repeat apply list_eq_cons; try reflexivity; lia.
Qed.
