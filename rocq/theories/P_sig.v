(** P_sig.v -- bit level lemmas for the signature codec *)
From Verif Require Import Base Spec M_ff M_codec M_sig P_codec.
Open Scope Z_scope.

(** ** bit strings *)
Lemma byte_bits_length b : length (byte_bits b) = 8%nat.
Proof. reflexivity. Qed.
Lemma bits_of_length l : length (bits_of l) = (8 * length l)%nat.
Proof. unfold bits_of. induction l as [|b l IH]; [reflexivity|]. cbn [flat_map]. rewrite app_length, byte_bits_length, IH. cbn [length]. lia. Qed.
Lemma bits_of_app a b : bits_of (a ++ b) = bits_of a ++ bits_of b.
Proof. unfold bits_of. apply flat_map_app. Qed.

Lemma bv_acc l v : fold_left (fun v (b : bool) => 2 * v + (if b then 1 else 0)) l v = v * 2 ^ Z.of_nat (length l) + bv l.
Proof.
  unfold bv. revert v. induction l as [|b l IH]; intros v; cbn [fold_left length]; [simpl; lia|].
  rewrite IH, (IH (2 * 0 + _)). rewrite Nat2Z.inj_succ, Z.pow_succ_r by lia. destruct b; lia.
Qed.
Lemma bv_app a b : bv (a ++ b) = bv a * 2 ^ Z.of_nat (length b) + bv b.
Proof. unfold bv at 1. rewrite fold_left_app, bv_acc. reflexivity. Qed.
Lemma bv_cons b l : bv (b :: l) = (if b then 1 else 0) * 2 ^ Z.of_nat (length l) + bv l.
Proof. apply (bv_app [b] l). Qed.
Lemma bv_range l : 0 <= bv l < 2 ^ Z.of_nat (length l).
Proof.
  induction l as [|b l IH]; [vm_compute; split; congruence|]. rewrite bv_cons. cbn [length].
  rewrite Nat2Z.inj_succ, Z.pow_succ_r by lia. destruct b; lia.
Qed.
Lemma bv_mid a b c : (bv (a ++ b ++ c) / 2 ^ Z.of_nat (length c)) mod 2 ^ Z.of_nat (length b) = bv b.
Proof.
  rewrite !bv_app, app_length, Nat2Z.inj_add, Z.pow_add_r by lia.
  pose proof (bv_range b). pose proof (bv_range c).
  set (B := 2 ^ Z.of_nat (length b)) in *. set (C := 2 ^ Z.of_nat (length c)) in *.
  replace (bv a * (B * C) + (bv b * C + bv c)) with (bv c + (bv a * B + bv b) * C) by ring.
  rewrite Z.div_add by lia. rewrite (Z.div_small (bv c)) by lia.
  rewrite Z.add_0_l, Z.add_comm, Z.mod_add by lia. apply Z.mod_small. lia.
Qed.
Lemma bv_false n : bv (repeat false n) = 0.
Proof. induction n as [|n IH]; [reflexivity|]. cbn [repeat]. rewrite bv_cons, IH. lia. Qed.

(** finite check over bytes *)
Lemma byte_all (P : Z -> bool) : forallb P (map Z.of_nat (seq 0 256)) = true -> forall b, byte b -> P b = true.
Proof.
  intros H b Hb. rewrite forallb_forall in H. apply H. apply in_map_iff. exists (Z.to_nat b). unfold byte in Hb.
  split; [lia|]. apply in_seq. lia.
Qed.
Lemma bv_byte_bits b : byte b -> bv (byte_bits b) = b.
Proof. intros H. apply Z.eqb_eq. revert b H. apply byte_all. vm_compute. reflexivity. Qed.

Lemma byte_bits_inj a b : byte a -> byte b -> byte_bits a = byte_bits b -> a = b.
Proof. intros Ha Hb E. rewrite <- (bv_byte_bits a Ha), <- (bv_byte_bits b Hb), E. reflexivity. Qed.

Lemma byte_bits_bv l : length l = 8%nat -> byte (bv l) /\ byte_bits (bv l) = l.
Proof.
  intros H. do 8 (destruct l as [|? l]; [discriminate|]). destruct l; [|discriminate].
  unfold byte. repeat match goal with b : bool |- _ => destruct b end; vm_compute; repeat split; congruence.
Qed.

Lemma app_eq_len {A} (a b c d : list A) : length a = length c -> a ++ b = c ++ d -> a = c /\ b = d.
Proof.
  revert c. induction a as [|x a IH]; intros [|y c] L E; try discriminate; [auto|].
  simpl in *. injection E as -> E. injection L as L. destruct (IH c L E) as [-> ->]. auto.
Qed.

Lemma bits_of_inj a b : bytes a -> bytes b -> bits_of a = bits_of b -> a = b.
Proof.
  revert b. induction a as [|x a IH]; intros [|y b] Ha Hb E; try reflexivity; try discriminate.
  apply Forall_cons_iff in Ha; destruct Ha as [Hx Ha]. apply Forall_cons_iff in Hb; destruct Hb as [Hy Hb].
  unfold bits_of in E. cbn [flat_map] in E. apply app_eq_len in E; [|rewrite !byte_bits_length; reflexivity].
  destruct E as [E1 E2]. f_equal; [apply byte_bits_inj; assumption|apply IH; assumption].
Qed.

Lemma bits_of_surj n l : length l = (8 * n)%nat -> exists b, bytes b /\ length b = n /\ bits_of b = l.
Proof.
  revert l. induction n as [|n IH]; intros l L.
  - exists []. destruct l; [|discriminate]. repeat split. constructor.
  - destruct (IH (skipn 8 l)) as (b & Hb & Lb & Eb); [rewrite skipn_length; lia|].
    assert (L8 : length (firstn 8 l) = 8%nat) by (rewrite firstn_length; lia).
    destruct (byte_bits_bv _ L8) as [B1 B2].
    exists (bv (firstn 8 l) :: b). split; [constructor; assumption|]. split; [simpl; lia|].
    unfold bits_of in *. cbn [flat_map]. rewrite B2, Eb. apply firstn_skipn.
Qed.

(** ** access *)
Lemma rdz_ok (l : list Z) i d : 0 <= i -> (Z.to_nat i < length l)%nat -> rdz l i = Ok (nth (Z.to_nat i) l d).
Proof. intros H1 H2. unfold rdz. rewrite (proj2 (Z.ltb_ge i 0)) by lia. apply rd_Ok; exact H2. Qed.
Lemma rdz_ub (l : list Z) i : 0 <= i -> (length l <= Z.to_nat i)%nat -> rdz l i = UB.
Proof. intros H1 H2. unfold rdz, rd. rewrite (proj2 (Z.ltb_ge i 0)) by lia. rewrite (proj2 (nth_error_None l _) H2). reflexivity. Qed.
Lemma wrz_ok (l : list Z) i v : 0 <= i -> (Z.to_nat i < length l)%nat -> wrz l i v = Ok (upd l (Z.to_nat i) v).
Proof. intros H1 H2. unfold wrz. rewrite (proj2 (Z.ltb_ge i 0)) by lia. apply wr_Ok; exact H2. Qed.

Lemma split_at {A} (l : list A) k d : (k < length l)%nat -> l = firstn k l ++ nth k l d :: skipn (S k) l.
Proof.
  revert l. induction k as [|k IH]; intros [|x l] H; simpl in H; try lia; [reflexivity|].
  cbn [firstn nth skipn]. cbn [app]. f_equal. apply IH. lia.
Qed.
Lemma upd_split {A} (l : list A) k v : (k < length l)%nat -> upd l k v = firstn k l ++ v :: skipn (S k) l.
Proof.
  revert l. induction k as [|k IH]; intros [|x l] H; simpl in H; try lia; [reflexivity|].
  cbn [firstn upd skipn app]. f_equal. apply IH. lia.
Qed.

Lemma skipn_bits mem k o : (o <= 8)%nat -> skipn (8 * k + o) (bits_of mem) = skipn o (bits_of (skipn k mem)).
Proof.
  revert mem. induction k as [|k IH]; intros mem Ho; [reflexivity|].
  destruct mem as [|b mem]; [rewrite !skipn_nil; reflexivity|].
  unfold bits_of. cbn [flat_map]. replace (8 * S k + o)%nat with (length (byte_bits b) + (8 * k + o))%nat by (rewrite byte_bits_length; lia).
  rewrite skipn_app, skipn_all2 by lia. cbn [app]. rewrite Nat.add_comm, Nat.add_sub. apply IH. exact Ho.
Qed.

Lemma nth_skip {A} (l : list A) k j d : nth (k + j) l d = nth j (skipn k l) d.
Proof. revert l. induction k as [|k IH]; intros [|x l]; simpl; auto. destruct j; reflexivity. Qed.

(** position split *)
Lemma pos_split i : 0 <= i -> shr i 3 = i / 8 /\ i .& 7 = i mod 8.
Proof.
  intros H. unfold shr. rewrite Z.shiftr_div_pow2 by lia. split; [reflexivity|].
  change 7 with (Z.ones 3). rewrite Z.land_ones by lia. reflexivity.
Qed.

Lemma two_bytes_bits a b l o : (o < 8)%nat ->
  firstn 8 (skipn o (bits_of (a :: b :: l))) = firstn 8 (skipn o (byte_bits a ++ byte_bits b)).
Proof.
  intros Ho. unfold bits_of. cbn [flat_map]. rewrite app_assoc, skipn_app, firstn_app.
  replace (o - length (byte_bits a ++ byte_bits b))%nat with 0%nat by (rewrite app_length, !byte_bits_length; lia).
  replace (8 - length (skipn o (byte_bits a ++ byte_bits b)))%nat with 0%nat by (rewrite skipn_length, app_length, !byte_bits_length; lia).
  rewrite firstn_O, app_nil_r. reflexivity.
Qed.

Lemma extract8_ok mem i : bytes mem -> 0 <= i -> i / 8 + 1 < Z.of_nat (length mem) ->
  extract_8_contiguous_bits mem i = Ok (bv (firstn 8 (skipn (Z.to_nat i) (bits_of mem)))).
Proof.
  intros Hb Hi Hl. unfold extract_8_contiguous_bits. destruct (pos_split i Hi) as [-> ->].
  assert (Hd : 0 <= i / 8) by (apply Z.div_pos; lia).
  rewrite (rdz_ok mem (i / 8) 0), (rdz_ok mem (i / 8 + 1) 0) by lia. cbn [bind]. f_equal.
  replace (Z.to_nat (i / 8 + 1)) with (S (Z.to_nat (i / 8))) by lia.
  set (k := Z.to_nat (i / 8)). set (o := Z.to_nat (i mod 8)).
  assert (Hm : 0 <= i mod 8 < 8) by (apply Z.mod_pos_bound; lia).
  assert (Ho : (o < 8)%nat) by (unfold o; lia).
  replace (Z.to_nat i) with (8 * k + o)%nat by (unfold k, o; pose proof (Z.div_mod i 8 ltac:(lia)); lia).
  rewrite skipn_bits by lia.
  assert (K : (S k < length mem)%nat) by (unfold k; lia).
  rewrite <- (firstn_skipn k mem) in Hb. apply Forall_app in Hb. destruct Hb as [_ Hb].
  replace (nth k mem 0) with (nth 0 (skipn k mem) 0) by (rewrite <- nth_skip; f_equal; lia).
  replace (nth (S k) mem 0) with (nth 1 (skipn k mem) 0) by (rewrite <- nth_skip; f_equal; lia).
  assert (L : (2 <= length (skipn k mem))%nat) by (rewrite skipn_length; lia).
  destruct (skipn k mem) as [|b0 [|b1 r]]; simpl in L; try lia. cbn [nth].
  apply Forall_cons_iff in Hb; destruct Hb as [B0 Hb]. apply Forall_cons_iff in Hb; destruct Hb as [B1 _].
  rewrite two_bytes_bits by exact Ho.
  assert (W : u16 (shl b0 8 .| b1) = bv (byte_bits b0 ++ byte_bits b1)).
  { rewrite bv_app, byte_bits_length, !bv_byte_bits by assumption. unfold byte in *.
    unfold u16, shl. rewrite lor_add by (try lia; change (2 ^ 8) with 256; lia).
    change (Z.of_nat 8) with 8. change (2 ^ 8) with 256. apply Z.mod_small. lia. }
  rewrite W. set (l := byte_bits b0 ++ byte_bits b1).
  assert (Ll : length l = 16%nat) by reflexivity.
  rewrite <- (firstn_skipn o l) at 1. rewrite <- (firstn_skipn 8 (skipn o l)) at 1.
  set (mid := firstn 8 (skipn o l)). set (hi := firstn o l). set (lo := skipn 8 (skipn o l)).
  assert (Lm : length mid = 8%nat) by (unfold mid; rewrite firstn_length, skipn_length, Ll; lia).
  assert (Lo : length lo = (8 - o)%nat) by (unfold lo; rewrite !skipn_length, Ll; lia).
  unfold u8, shr. rewrite Z.shiftr_div_pow2 by lia.
  replace (8 - i mod 8) with (Z.of_nat (length lo)) by (rewrite Lo; unfold o; lia).
  change 256 with (2 ^ Z.of_nat 8). rewrite <- Lm. apply bv_mid.
Qed.

Lemma extract8_ub mem i : 0 <= i -> Z.of_nat (length mem) <= i / 8 + 1 -> extract_8_contiguous_bits mem i = UB.
Proof.
  intros Hi Hl. unfold extract_8_contiguous_bits. destruct (pos_split i Hi) as [-> ->].
  assert (Hd : 0 <= i / 8) by (apply Z.div_pos; lia).
  destruct (Z_lt_ge_dec (i / 8) (Z.of_nat (length mem))).
  - rewrite (rdz_ok mem (i / 8) 0) by lia. cbn [bind]. rewrite rdz_ub by lia. reflexivity.
  - rewrite rdz_ub by lia. reflexivity.
Qed.

Lemma extract_rem_ok mem i : bytes mem -> 0 <= i -> i / 8 < Z.of_nat (length mem) ->
  extract_rem_contiguous_bits_in_byte mem i =
  Ok (bv (firstn (8 - Z.to_nat (i mod 8)) (skipn (Z.to_nat i) (bits_of mem)) ++ repeat false (Z.to_nat (i mod 8)))).
Proof.
  intros Hb Hi Hl. unfold extract_rem_contiguous_bits_in_byte. destruct (pos_split i Hi) as [-> ->].
  assert (Hd : 0 <= i / 8) by (apply Z.div_pos; lia).
  rewrite (rdz_ok mem (i / 8) 0) by lia. cbn [bind]. f_equal.
  set (k := Z.to_nat (i / 8)). set (o := Z.to_nat (i mod 8)).
  assert (Hm : 0 <= i mod 8 < 8) by (apply Z.mod_pos_bound; lia).
  assert (Ho : (o < 8)%nat) by (unfold o; lia).
  replace (Z.to_nat i) with (8 * k + o)%nat by (unfold k, o; pose proof (Z.div_mod i 8 ltac:(lia)); lia).
  rewrite skipn_bits by lia.
  rewrite <- (firstn_skipn k mem) in Hb. apply Forall_app in Hb. destruct Hb as [_ Hb].
  replace (nth k mem 0) with (nth 0 (skipn k mem) 0) by (rewrite <- nth_skip; f_equal; lia).
  assert (L : (1 <= length (skipn k mem))%nat) by (rewrite skipn_length; unfold k; lia).
  destruct (skipn k mem) as [|b0 r]; simpl in L; try lia. cbn [nth].
  apply Forall_cons_iff in Hb; destruct Hb as [B0 _].
  unfold bits_of. cbn [flat_map]. rewrite skipn_app, firstn_app.
  replace (8 - o - length (skipn o (byte_bits b0)))%nat with 0%nat by (rewrite skipn_length, byte_bits_length; lia).
  rewrite firstn_O, app_nil_r, firstn_all2 by (rewrite skipn_length, byte_bits_length; lia).
  rewrite bv_app, bv_false, repeat_length, Z.add_0_r.
  unfold u8, shl. rewrite Z.shiftl_mul_pow2 by lia. replace (i mod 8) with (Z.of_nat o) by (unfold o; lia).
  rewrite <- (bv_byte_bits b0 B0) at 1. rewrite <- (firstn_skipn o (byte_bits b0)) at 1. rewrite bv_app.
  assert (L2 : length (skipn o (byte_bits b0)) = (8 - o)%nat) by (rewrite skipn_length, byte_bits_length; lia).
  pose proof (bv_range (skipn o (byte_bits b0))) as R. rewrite L2 in *.
  set (h := bv (firstn o (byte_bits b0))). set (t := bv (skipn o (byte_bits b0))) in *.
  assert (P : 2 ^ Z.of_nat (8 - o) * 2 ^ Z.of_nat o = 256) by (rewrite <- Z.pow_add_r by lia; replace (Z.of_nat (8 - o) + Z.of_nat o) with 8 by lia; reflexivity).
  assert (0 < 2 ^ Z.of_nat o) by (apply Z.pow_pos_nonneg; lia).
  set (A := 2 ^ Z.of_nat (8 - o)) in *. set (C := 2 ^ Z.of_nat o) in *.
  replace ((h * A + t) * C) with (t * C + h * (A * C)) by ring. rewrite P, Z.mod_add by lia. apply Z.mod_small. nia.
Qed.

(** countl_zero *)
Lemma clz8_bits l : length l = 8%nat ->
  (exists k, (k < 8)%nat /\ clz8 (bv l) = Z.of_nat k /\ l = repeat false k ++ [true] ++ skipn (S k) l) \/
  (clz8 (bv l) = 8 /\ l = repeat false 8).
Proof.
  intros H. do 8 (destruct l as [|? l]; [discriminate|]). destruct l; [|discriminate].
  destruct b; [left; exists 0%nat; split; [lia|]; split; [|reflexivity];
    destruct b0, b1, b2, b3, b4, b5, b6; vm_compute; reflexivity|].
  destruct b0; [left; exists 1%nat; split; [lia|]; split; [|reflexivity];
    destruct b1, b2, b3, b4, b5, b6; vm_compute; reflexivity|].
  destruct b1; [left; exists 2%nat; split; [lia|]; split; [|reflexivity];
    destruct b2, b3, b4, b5, b6; vm_compute; reflexivity|].
  destruct b2; [left; exists 3%nat; split; [lia|]; split; [|reflexivity];
    destruct b3, b4, b5, b6; vm_compute; reflexivity|].
  destruct b3; [left; exists 4%nat; split; [lia|]; split; [|reflexivity];
    destruct b4, b5, b6; vm_compute; reflexivity|].
  destruct b4; [left; exists 5%nat; split; [lia|]; split; [|reflexivity];
    destruct b5, b6; vm_compute; reflexivity|].
  destruct b5; [left; exists 6%nat; split; [lia|]; split; [|reflexivity];
    destruct b6; vm_compute; reflexivity|].
  destruct b6; [left; exists 7%nat; split; [lia|]; split; reflexivity|].
  right. split; reflexivity.
Qed.
Lemma clz8_first k r : length (repeat false k ++ true :: r) = 8%nat -> clz8 (bv (repeat false k ++ true :: r)) = Z.of_nat k.
Proof.
  intros L. destruct (clz8_bits _ L) as [(j & Hj & E & D) | (E & D)].
  - rewrite E. f_equal. remember (skipn (S j) (repeat false k ++ true :: r)) as l0 eqn:E0. clear E L E0 Hj. revert k D.
    induction j as [|j IH]; intros [|k] D; simpl in D; try discriminate; [reflexivity|]. injection D as D.
    f_equal. apply IH. exact D.
  - exfalso. assert (In true (repeat false 8)) by (rewrite <- D; apply in_or_app; right; left; reflexivity).
    apply repeat_spec in H. discriminate.
Qed.
