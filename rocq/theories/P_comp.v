(** P_comp.v -- compress_sig writes exactly the bit string of the specification *)
From Verif Require Import Base Spec M_ff M_codec M_sig P_codec P_nttx P_sig.
Open Scope Z_scope.

(** ** writing one bit *)
Lemma lor_bit_check : forallb (fun b => forallb (fun o => forallb (fun bit : Z =>
   let v := u8 (b .| shl bit (7 - Z.of_nat o)) in
   negb (forallb negb (skipn o (byte_bits b))) ||
   ((0 <=? v) && (v <? 256) &&
    (if list_eq_dec Bool.bool_dec (byte_bits v) (firstn o (byte_bits b) ++ (bit =? 1) :: repeat false (7 - o)) then true else false)))
   [0; 1]) (seq 0 8)) (map Z.of_nat (seq 0 256)) = true.
Proof. vm_compute. reflexivity. Qed.

Lemma lor_bit b o bit : byte b -> (o < 8)%nat -> bit = 0 \/ bit = 1 -> skipn o (byte_bits b) = repeat false (8 - o) ->
  let v := u8 (b .| shl bit (7 - Z.of_nat o)) in
  byte v /\ byte_bits v = firstn o (byte_bits b) ++ (bit =? 1) :: repeat false (7 - o).
Proof.
  intros Hb Ho Hbit Hz v. pose proof (byte_all _ lor_bit_check b Hb) as H. cbv beta in H.
  rewrite forallb_forall in H. specialize (H o ltac:(apply in_seq; lia)). rewrite forallb_forall in H.
  specialize (H bit ltac:(simpl; intuition)). cbv zeta in H. fold v in H.
  assert (Z0 : forallb negb (skipn o (byte_bits b)) = true).
  { apply forallb_forall. intros x Hx. rewrite Hz in Hx. apply repeat_spec in Hx. subst x. reflexivity. }
  rewrite Z0 in H. cbn [negb orb] in H. apply andb_prop in H. destruct H as [H1 H2]. unfold byte.
  destruct (list_eq_dec Bool.bool_dec _ _) in H2; [|discriminate]. split; [lia|assumption].
Qed.

Lemma repeat_app_eq {A} (x : A) n a b : a ++ b = repeat x n -> a = repeat x (length a) /\ b = repeat x (length b).
Proof.
  revert n. induction a as [|y a IH]; intros n E.
  - simpl in *. subst b. rewrite repeat_length. auto.
  - destruct n; [discriminate|]. simpl in E. injection E as -> E. apply IH in E. destruct E as [E1 E2].
    split; [simpl; f_equal; exact E1|exact E2].
Qed.

Definition bstate (buf : list Z) (W : list bool) (m : nat) : Prop :=
  bytes buf /\ bits_of buf = W ++ repeat false m.

Lemma or_bit_ok buf W m bit : bstate buf W (S m) -> bit = 0 \/ bit = 1 ->
  exists buf', or_bit buf (Z.of_nat (length W)) bit = Ok buf' /\ bstate buf' (W ++ [bit =? 1]) m /\ length buf' = length buf.
Proof.
  intros [Hb E] Hbit. pose proof (f_equal (@length _) E) as L. rewrite bits_of_length, app_length, repeat_length in L.
  unfold or_bit. set (pos := length W) in *. destruct (pos_split (Z.of_nat pos) ltac:(lia)) as [-> ->].
  set (k := (pos / 8)%nat). set (o := (pos mod 8)%nat).
  assert (D : pos = (8 * k + o)%nat) by (apply Nat.div_mod; lia). assert (Ho : (o < 8)%nat) by (apply Nat.mod_upper_bound; lia).
  replace (Z.of_nat pos / 8) with (Z.of_nat k) by (unfold k; rewrite Nat2Z.inj_div; reflexivity).
  replace (Z.of_nat pos mod 8) with (Z.of_nat o) by (unfold o; rewrite Nat2Z.inj_mod; reflexivity).
  assert (K : (k < length buf)%nat) by lia.
  rewrite (rdz_ok buf (Z.of_nat k) 0) by (rewrite ?Nat2Z.id; lia). cbn [bind]. rewrite Nat2Z.id.
  rewrite wrz_ok by (rewrite ?Nat2Z.id; lia). rewrite Nat2Z.id, upd_split by exact K.
  pose proof (split_at buf k 0 K) as S0. set (b := nth k buf 0) in *. set (P := firstn k buf) in *. set (R := skipn (S k) buf) in *.
  assert (Bb : byte b) by (apply Forall_nth_lt; assumption).
  assert (BP : bytes P /\ bytes R) by (rewrite S0 in Hb; apply Forall_app in Hb; destruct Hb as [H1 H2]; apply Forall_cons_iff in H2; split; [exact H1|apply H2]).
  assert (LP : length P = k) by (unfold P; rewrite firstn_length; lia).
  rewrite S0, bits_of_app in E. change (bits_of (b :: R)) with (byte_bits b ++ bits_of R) in E.
  rewrite <- (firstn_skipn o (byte_bits b)) in E. rewrite <- (app_assoc (firstn o _)), (app_assoc (bits_of P)) in E.
  apply app_eq_len in E; [|rewrite app_length, bits_of_length, firstn_length, byte_bits_length, LP; fold pos; lia].
  destruct E as [E1 E2]. apply repeat_app_eq in E2. destruct E2 as [E2 E3].
  assert (Z1 : skipn o (byte_bits b) = repeat false (8 - o)) by (rewrite E2; f_equal; rewrite skipn_length, byte_bits_length; reflexivity).
  destruct (lor_bit b o bit Bb Ho Hbit Z1) as [V1 V2].
  eexists. split; [reflexivity|]. split; [split|].
  - apply Forall_app. split; [apply BP|]. apply Forall_cons; [exact V1|apply BP].
  - rewrite bits_of_app. change (bits_of (?v :: R)) with (byte_bits v ++ bits_of R).
    rewrite V2, E3, <- E1, <- !app_assoc. cbn [app]. do 3 f_equal.
    rewrite <- repeat_app. f_equal. rewrite bits_of_length. unfold R. rewrite skipn_length. lia.
  - rewrite app_length. cbn [length]. unfold R. rewrite skipn_length. lia.
Qed.

Lemma or_bit_full buf W bit : bstate buf W 0 -> or_bit buf (Z.of_nat (length W)) bit = UB.
Proof.
  intros [Hb E]. pose proof (f_equal (@length _) E) as L. rewrite bits_of_length, app_length in L. simpl in L.
  unfold or_bit. destruct (pos_split (Z.of_nat (length W)) ltac:(lia)) as [-> ->]. rewrite rdz_ub; [reflexivity|lia|].
  replace (Z.of_nat (length W)) with (Z.of_nat (length buf) * 8) by lia. rewrite Z.div_mul by lia. lia.
Qed.

(** ** writing a list of bits *)
Fixpoint or_bits (l : list Z) (buf : list Z) (p : Z) : res (list Z) :=
  match l with [] => Ok buf | b :: l' => buf <- or_bit buf p b ;; or_bits l' buf (p + 1) end.

Lemma or_bits_app a b buf p : or_bits (a ++ b) buf p = (buf <- or_bits a buf p ;; or_bits b buf (p + Z.of_nat (length a))).
Proof.
  revert buf p. induction a as [|x a IH]; intros buf p; cbn [app or_bits bind length].
  - f_equal. lia.
  - destruct (or_bit buf p x); cbn [bind]; [|reflexivity|reflexivity]. rewrite IH.
    destruct (or_bits a a0 (p + 1)); cbn [bind]; [|reflexivity|reflexivity]. f_equal. lia.
Qed.

Lemma or_bits_forn (f : nat -> Z) n j buf p :
  forn n j (fun i buf => or_bit buf (p + Z.of_nat i) (f i)) buf = or_bits (map f (seq j n)) buf (p + Z.of_nat j).
Proof.
  revert j buf. induction n as [|n IH]; intros j buf; [reflexivity|]. cbn [forn seq map or_bits].
  destruct (or_bit buf (p + Z.of_nat j) (f j)); cbn [bind]; [|reflexivity|reflexivity]. rewrite IH. f_equal. lia.
Qed.

Lemma or_bits_ok l : Forall (fun b => b = 0 \/ b = 1) l -> forall buf W m, bstate buf W (length l + m) ->
  exists buf', or_bits l buf (Z.of_nat (length W)) = Ok buf' /\ bstate buf' (W ++ map (fun b => b =? 1) l) m /\ length buf' = length buf.
Proof.
  induction 1 as [|b l Hb Hl IH]; intros buf W m H.
  - exists buf. cbn [map]. rewrite app_nil_r. auto.
  - destruct (or_bit_ok buf W (length l + m) b H Hb) as (buf1 & E1 & H1 & L1).
    destruct (IH buf1 (W ++ [b =? 1]) m H1) as (buf2 & E2 & H2 & L2).
    exists buf2. cbn [or_bits]. rewrite E1. cbn [bind]. rewrite app_length in E2. cbn [length] in E2.
    replace (Z.of_nat (length W) + 1) with (Z.of_nat (length W + 1)) by lia. split; [exact E2|].
    rewrite <- app_assoc in H2. split; [exact H2|lia].
Qed.

Lemma or_bits_over l : Forall (fun b => b = 0 \/ b = 1) l -> forall buf W m, bstate buf W m -> (m < length l)%nat ->
  or_bits l buf (Z.of_nat (length W)) = UB.
Proof.
  induction 1 as [|b l Hb Hl IH]; intros buf W m H Lt; [simpl in Lt; lia|]. cbn [or_bits].
  destruct m as [|m]; [rewrite or_bit_full by exact H; reflexivity|].
  destruct (or_bit_ok buf W m b H Hb) as (buf1 & E1 & H1 & L1). rewrite E1. cbn [bind].
  specialize (IH buf1 (W ++ [b =? 1]) m H1). rewrite app_length in IH. cbn [length] in IH, Lt.
  replace (Z.of_nat (length W) + 1) with (Z.of_nat (length W + 1)) by lia. apply IH. lia.
Qed.

(** ** one coefficient *)
Definition encz (s : Z) : list Z := map b2z (enc s).

Lemma encz_bits s : Forall (fun b => b = 0 \/ b = 1) (encz s).
Proof. unfold encz. apply Forall_forall. intros x Hx. apply in_map_iff in Hx. destruct Hx as ([|] & <- & _); simpl; auto. Qed.
Lemma encz_enc l : map (fun b => b =? 1) (map b2z l) = l.
Proof. rewrite map_map. rewrite <- (map_id l) at 2. apply map_ext. intros [|]; reflexivity. Qed.
Lemma enc_length s : Z.of_nat (length (enc s)) = enc_len s.
Proof.
  unfold enc, enc_len. cbn [length]. rewrite !app_length, repeat_length. unfold low7. rewrite map_length, seq_length. cbn [length].
  pose proof (Z.div_pos (Z.abs s) 128 ltac:(lia) ltac:(lia)). lia.
Qed.

Lemma low7_z a : 0 <= a -> map (fun i => u8 (shr a (6 - Z.of_nat i) .& 1)) (seq 0 7) = map b2z (low7 a).
Proof.
  intros Ha. unfold low7. rewrite map_map. apply map_ext_in. intros i Hi. apply in_seq in Hi.
  unfold shr. change 1 with (Z.ones 1). rewrite Z.land_ones by lia.
  replace (6 - Z.of_nat i) with (Z.of_nat (6 - i)) by lia.
  pose proof (Z.testbit_spec' a (Z.of_nat (6 - i)) ltac:(lia)) as T. rewrite Z.shiftr_div_pow2 by lia.
  change (2 ^ 1) with 2. rewrite <- T. unfold u8, b2z. destruct (Z.testbit a (Z.of_nat (6 - i))); reflexivity.
Qed.

Lemma compress_coeff_eq s buf p : s <> -2147483648 ->
  compress_coeff s (buf, p) = (buf <- or_bits (encz s) buf p ;; Ok (buf, p + enc_len s)).
Proof.
  intros Hs. unfold compress_coeff, encz, enc, abs32. rewrite (proj2 (Z.eqb_neq _ _) Hs).
  rewrite Z.mul_1_r. cbn [map or_bits bind].
  destruct (or_bit buf p (b2z (s <? 0))) as [b1| |]; cbn [bind]; [|reflexivity|reflexivity].
  rewrite (or_bits_forn (fun i => u8 (shr (Z.abs s) (6 - Z.of_nat i) .& 1)) 7 0 b1 (p + 1)), low7_z by lia.
  rewrite !map_app, or_bits_app. change (Z.of_nat 0) with 0. rewrite Z.add_0_r.
  replace (Z.of_nat (length (map b2z (low7 (Z.abs s))))) with 7 by reflexivity.
  destruct (or_bits (map b2z (low7 (Z.abs s))) b1 (p + 1)) as [b2| |]; cbn [bind]; [|reflexivity|reflexivity].
  unfold shr. rewrite Z.shiftr_div_pow2 by lia. change (2 ^ 7) with 128. set (k := Z.abs s / 128).
  rewrite (or_bits_forn (fun _ => 0)), or_bits_app.
  assert (M : map (fun _ => 0) (seq 0 (Z.to_nat k)) = map b2z (repeat false (Z.to_nat k))).
  { generalize (Z.to_nat k) 0%nat. clear. intros n. induction n as [|n IH]; intros j; [reflexivity|]. cbn [seq map repeat]. f_equal. apply IH. }
  rewrite M. change (Z.of_nat 0) with 0. rewrite Z.add_0_r.
  destruct (or_bits (map b2z (repeat false (Z.to_nat k))) b2 (p + 1 + 7)) as [b3| |]; cbn [bind]; [|reflexivity|reflexivity].
  cbn [map or_bits]. rewrite map_length, repeat_length.
  assert (0 <= k) by (apply Z.div_pos; lia). rewrite Z2Nat.id by lia. change (b2z true) with 1.
  destruct (or_bit b3 (p + 1 + 7 + k) 1); cbn [bind]; [|reflexivity|reflexivity].
  f_equal. f_equal. unfold enc_len. fold k. lia.
Qed.

(** ** all coefficients *)
Fixpoint mfold {A S} (f : A -> S -> res S) (l : list A) (s : S) : res S :=
  match l with [] => Ok s | a :: l' => s <- f a s ;; mfold f l' s end.

Lemma forn_mfold {A S} (f : A -> S -> res S) (l pre : list A) (s : S) :
  forn (length l) (length pre) (fun i st => a <- rd (pre ++ l) i ;; f a st) s = mfold f l s.
Proof.
  revert pre s. induction l as [|a l IH]; intros pre s; [reflexivity|]. cbn [length forn mfold].
  rewrite (rd_Ok (pre ++ a :: l) (length pre) a) by (rewrite app_length; simpl; lia).
  rewrite app_nth2, Nat.sub_diag by lia. cbn [nth bind].
  destruct (f a s); cbn [bind]; [|reflexivity|reflexivity].
  specialize (IH (pre ++ [a])). rewrite app_length in IH. cbn [length] in IH.
  replace (length pre + 1)%nat with (Datatypes.S (length pre)) in IH by lia. rewrite <- app_assoc in IH. apply IH.
Qed.

Lemma encs_length l : Z.of_nat (length (encs l)) = tot l.
Proof.
  unfold encs, tot. induction l as [|s l IH]; [reflexivity|]. cbn [flat_map fold_right].
  rewrite app_length, Nat2Z.inj_add, enc_length, IH. reflexivity.
Qed.

Lemma enc_len_pos s : 9 <= enc_len s.
Proof. unfold enc_len. pose proof (Z.div_pos (Z.abs s) 128 ltac:(lia) ltac:(lia)). lia. Qed.
Lemma tot_nonneg l : 0 <= tot l.
Proof. unfold tot. induction l as [|s l IH]; [reflexivity|]. cbn [fold_right] in *. pose proof (enc_len_pos s). lia. Qed.

Lemma mfold_compress l : forall buf W m, bstate buf W m -> Z.of_nat m < 16777216 ->
  (tot l <= Z.of_nat m ->
    exists buf', mfold compress_coeff l (buf, Z.of_nat (length W)) = Ok (buf', Z.of_nat (length W) + tot l) /\
      bstate buf' (W ++ encs l) (m - length (encs l)) /\ length buf' = length buf) /\
  (Z.of_nat m < tot l -> mfold compress_coeff l (buf, Z.of_nat (length W)) = UB).
Proof.
  induction l as [|s l IH]; intros buf W m H Hm.
  - split; [intros _|unfold tot; simpl; lia]. exists buf. cbn [mfold encs flat_map length]. unfold tot. cbn [fold_right].
    rewrite Z.add_0_r, app_nil_r, Nat.sub_0_r. auto.
  - assert (T : tot (s :: l) = enc_len s + tot l) by reflexivity.
    assert (EL : length (encz s) = length (enc s)) by (unfold encz; apply map_length).
    pose proof (enc_length s) as EL2. pose proof (tot_nonneg l) as TN.
    cbn [mfold]. destruct (Z.eq_dec s (-2147483648)) as [->|Hs].
    { assert (X : enc_len (-2147483648) = 16777225) by reflexivity. split; [lia|intros _].
      unfold compress_coeff, abs32. change (-2147483648 =? -2147483648) with true. cbn [bind].
      destruct m as [|m]; [rewrite or_bit_full by exact H; reflexivity|].
      destruct (or_bit_ok buf W m (b2z (-2147483648 <? 0) * 1) H) as (b1 & -> & _); [right; reflexivity|]. reflexivity. }
    rewrite compress_coeff_eq by exact Hs.
    destruct (le_lt_dec (length (enc s)) m) as [Le|Lt].
    + destruct (or_bits_ok (encz s) (encz_bits s) buf W (m - length (enc s))) as (b1 & -> & H1 & L1).
      { rewrite EL. replace (length (enc s) + (m - length (enc s)))%nat with m by lia. exact H. }
      cbn [bind]. unfold encz in H1. rewrite encz_enc in H1.
      destruct (IH b1 (W ++ enc s) _ H1) as [I1 I2]; [lia|].
      replace (Z.of_nat (length (W ++ enc s))) with (Z.of_nat (length W) + enc_len s) in I1, I2 by (rewrite app_length, Nat2Z.inj_add, enc_length; reflexivity).
      split; intros C.
      * destruct I1 as (b2 & E2 & H2 & L2); [lia|]. exists b2. split; [rewrite E2; do 2 f_equal; lia|].
        unfold encs in *. cbn [flat_map]. rewrite <- app_assoc in H2. split; [|lia].
        rewrite app_length. replace (m - (length (enc s) + length (flat_map enc l)))%nat with (m - length (enc s) - length (flat_map enc l))%nat by lia. exact H2.
      * apply I2. lia.
    + split; [lia|intros _]. rewrite (or_bits_over (encz s) (encz_bits s) buf W m H) by lia. reflexivity.
Qed.

Lemma bits_of_firstn k l : bits_of (firstn k l) = firstn (8 * k) (bits_of l).
Proof.
  revert l. induction k as [|k IH]; intros [|b l]; [reflexivity|reflexivity|cbn [firstn]; rewrite firstn_nil; reflexivity|].
  unfold bits_of in *. cbn [firstn flat_map]. rewrite IH.
  replace (8 * S k)%nat with (length (byte_bits b) + 8 * k)%nat by (rewrite byte_bits_length; lia).
  rewrite firstn_app_2. reflexivity.
Qed.
Lemma bits_zero n : bits_of (repeat 0 n) = repeat false (8 * n).
Proof.
  induction n as [|n IH]; [reflexivity|]. cbn [repeat]. change (bits_of (0 :: repeat 0 n)) with (byte_bits 0 ++ bits_of (repeat 0 n)).
  rewrite IH. change (byte_bits 0) with (repeat false 8). rewrite <- repeat_app. f_equal. lia.
Qed.


Lemma firstn_repeat {A} (x : A) k n : firstn k (repeat x n) = repeat x (Nat.min k n).
Proof. revert n. induction k as [|k IH]; intros [|n]; cbn; [reflexivity|reflexivity|reflexivity|]. f_equal. apply IH. Qed.

Lemma compress_ok lg s sig : falcon_lg lg -> length s = (2 ^ lg)%nat -> length sig = sig_len lg ->
  (tot s <= 14 * 2 ^ Z.of_nat lg ->
    exists body, compress_sig lg s sig = Ok (tot s <? body_len lg, firstn 41 sig ++ body) /\
      bytes body /\ length body = (sig_len lg - 41)%nat /\
      (tot s < body_len lg -> bits_of body = encs s ++ repeat false (Z.to_nat (body_len lg - tot s))) /\
      (body_len lg <= tot s -> body = repeat 0 (sig_len lg - 41))) /\
  (14 * 2 ^ Z.of_nat lg < tot s -> compress_sig lg s sig = UB).
Proof.
  intros Hlg Ls Lsig. set (max := ((14 * 2 ^ lg) / 8)%nat).
  assert (DM : (8 * max = 14 * 2 ^ lg)%nat) by (unfold max; destruct Hlg as [-> | ->]; vm_compute; reflexivity).
  assert (DZ : 14 * 2 ^ Z.of_nat lg = Z.of_nat (8 * max)) by (rewrite DM; destruct Hlg as [-> | ->]; vm_compute; reflexivity).
  assert (DM2 : Z.of_nat (8 * max) < 16777216) by (rewrite DM; destruct Hlg as [-> | ->]; vm_compute; reflexivity).
  assert (DS : (41 <= sig_len lg /\ sig_len lg - 41 <= max)%nat) by (unfold max; destruct Hlg as [-> | ->]; vm_compute; lia).
  assert (I : bstate (repeat 0 max) [] (8 * max)).
  { split; [apply Forall_rep; unfold byte; lia|]. apply bits_zero. }
  destruct (mfold_compress s (repeat 0 max) [] (8 * max) I DM2) as [H1 H2].
  cbn [length] in H1, H2. change (Z.of_nat 0) with 0 in H1, H2. rewrite DZ.
  assert (F : forn (2 ^ lg) 0 (fun i st => s0 <- rd s i ;; compress_coeff s0 st) (repeat 0 max, 0) = mfold compress_coeff s (repeat 0 max, 0)).
  { rewrite <- Ls. apply (forn_mfold compress_coeff s []). }
  unfold compress_sig. fold max. rewrite F. change (1 + 40)%nat with 41%nat. change (8 + 320) with 328. change (8 * Z.of_nat (sig_len lg) - 328) with (body_len lg).
  split; intros C.
  - destruct H1 as (buf & E & [B1 B2] & L); [exact C|]. rewrite repeat_length in L. rewrite E. cbn [bind].
    rewrite Z.add_0_l in *. rewrite Z.geb_leb.
    set (BL := body_len lg) in *. assert (HBL : BL = Z.of_nat (8 * (sig_len lg - 41))) by (unfold BL, body_len; change (sig_bytes lg) with (sig_len lg); lia).
    destruct (Z_lt_ge_dec (tot s) BL) as [Lt|Ge].
    + rewrite (proj2 (Z.leb_gt _ _)) by lia. rewrite Nat.mul_0_r. cbn [repeat].
      rewrite wrs_ok by (cbn [length]; lia). cbn [firstn app length skipn bind Nat.add].
      rewrite rds_ok by lia. cbn [bind]. rewrite wrs_ok by (rewrite slice_length by lia; lia). cbn [bind].
      rewrite slice_length by lia. rewrite (skipn_all2 sig) by lia. rewrite app_nil_r.
      exists (slice buf 0 (sig_len lg - 41)). split; [reflexivity|]. split; [apply Forall_slice; exact B1|].
      split; [apply slice_length; lia|]. split; [intros _|lia].
      unfold slice. cbn [skipn]. rewrite bits_of_firstn, B2. cbn [app]. pose proof (encs_length s) as EL.
      rewrite firstn_app, firstn_all2 by lia. f_equal. rewrite firstn_repeat. f_equal. lia.
    + rewrite (proj2 (Z.leb_le _ _)) by lia. rewrite Nat.mul_1_r.
      rewrite wrs_all by (rewrite repeat_length; lia). cbn [bind].
      rewrite rds_ok by (rewrite repeat_length; lia). cbn [bind].
      assert (SL : slice (repeat 0 max) 0 (sig_len lg - 41) = repeat 0 (sig_len lg - 41)).
      { unfold slice. cbn [skipn]. rewrite firstn_repeat. f_equal. lia. }
      rewrite SL. rewrite wrs_ok by (rewrite repeat_length; lia). cbn [bind].
      rewrite repeat_length, (skipn_all2 sig) by lia. rewrite app_nil_r.
      exists (repeat 0 (sig_len lg - 41)). split; [reflexivity|]. split; [apply Forall_rep; unfold byte; lia|].
      split; [apply repeat_length|]. split; [lia|reflexivity].
  - rewrite H2 by exact C. reflexivity.
Qed.

(** ** short vectors fit the internal buffer *)
Lemma tot_norm s t : 0 < t -> 2 * t * 128 * (tot s - 9 * Z.of_nat (length s)) <= sqnorm s + t * t * Z.of_nat (length s).
Proof.
  intros Ht. unfold tot, sqnorm. induction s as [|x s IH]; [simpl; lia|].
  cbn [fold_right length]. rewrite Nat2Z.inj_succ. unfold enc_len at 1.
  assert (X : 128 * (Z.abs x / 128) <= Z.abs x) by (apply Z.mul_div_le; lia).
  assert (Y : 2 * t * Z.abs x <= x * x + t * t) by (pose proof (Z.square_nonneg (Z.abs x - t)); pose proof (Z.abs_square x); nia).
  assert (Y2 : 2 * t * (128 * (Z.abs x / 128)) <= 2 * t * Z.abs x) by (apply Z.mul_le_mono_nonneg_l; lia).
  nia.
Qed.
