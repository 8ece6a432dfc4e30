(** P_keys.v -- whole-array round trips of the public and secret key codecs. *)
From Coq Require Import ZifyBool ZifyNat.
From Verif Require Import Base Spec M_ff M_codec P_codec.
Open Scope Z_scope.

Lemma pk_dims lg : falcon_lg lg ->
  (2 ^ lg = 4 * (2 ^ lg / 4) /\ pkey_len lg = 1 + 7 * (2 ^ lg / 4) /\ (pkey_len lg - 1) / 7 = 2 ^ lg / 4)%nat.
Proof. intros [-> | ->]; vm_compute; auto. Qed.

Lemma firstn_1 {A} (x : A) l : firstn 1 (x :: l) = [x].
Proof. reflexivity. Qed.

Lemma pk_group h i m : length h = (4 * m)%nat -> Forall lt14 h -> (i < m)%nat ->
  exists h0 h1 h2 h3, slice h (4 * i) 4 = [h0; h1; h2; h3] /\ lt14 h0 /\ lt14 h1 /\ lt14 h2 /\ lt14 h3.
Proof.
  intros L H Hi. assert (Ls : length (slice h (4 * i) 4) = 4%nat) by (apply slice_length; lia).
  assert (Fs := Forall_slice _ _ (4 * i) 4 H). destruct (slice h (4 * i) 4) as [|a [|b [|c [|d [|e l]]]]]; try discriminate.
  repeat match goal with F : Forall _ (_ :: _) |- _ => apply Forall_cons_iff in F; destruct F as [? F] end.
  exists a, b, c, d. auto.
Qed.

Lemma pk_group7 p o i m : (o + 7 * m <= length p)%nat -> bytes p -> (i < m)%nat ->
  exists p0 p1 p2 p3 p4 p5 p6, slice p (o + 7 * i) 7 = [p0; p1; p2; p3; p4; p5; p6] /\
   byte p0 /\ byte p1 /\ byte p2 /\ byte p3 /\ byte p4 /\ byte p5 /\ byte p6.
Proof.
  intros L H Hi. assert (Ls : length (slice p (o + 7 * i) 7) = 7%nat) by (apply slice_length; lia).
  assert (Fs := Forall_slice _ _ (o + 7 * i) 7 H). destruct (slice p (o + 7 * i) 7) as [|a [|b [|c [|d [|e [|f [|g [|k l]]]]]]]]; try discriminate.
  repeat match goal with F : Forall _ (_ :: _) |- _ => apply Forall_cons_iff in F; destruct F as [? F] end.
  exists a, b, c, d, e, f, g. repeat split; auto; try apply H0; try apply H1; try apply H2; try apply H3; try apply H4; try apply H5; try apply H6.
Qed.

Definition pk_body (h : list Z) (m : nat) : list Z := blocks m (fun i => pk_pack (slice h (4 * i) 4)).

Lemma pk_body_len h m : length h = (4 * m)%nat -> length (pk_body h m) = (7 * m)%nat.
Proof.
  intros L. apply blocks_length. intros i Hi.
  assert (Ls : length (slice h (4 * i) 4) = 4%nat) by (apply slice_length; lia).
  destruct (slice h (4 * i) 4) as [|a [|b [|c [|d [|e l]]]]]; try discriminate. reflexivity.
Qed.

Lemma u8_byte x : byte (u8 x).
Proof. unfold byte, u8. apply Z.mod_pos_bound. lia. Qed.

Lemma pk_body_bytes h m : length h = (4 * m)%nat -> bytes (pk_body h m).
Proof.
  intros L. apply Forall_blocks. intros i Hi.
  assert (Ls : length (slice h (4 * i) 4) = 4%nat) by (apply slice_length; lia).
  destruct (slice h (4 * i) 4) as [|a [|b [|c [|d [|e l]]]]]; try discriminate.
  unfold pk_pack. repeat (apply Forall_cons; [apply u8_byte|]). apply Forall_nil.
Qed.

Lemma encode_pkey_ok lg h pk : falcon_lg lg -> length h = (2 ^ lg)%nat -> length pk = pkey_len lg ->
  encode_pkey lg h pk = Ok (Z.of_nat lg :: pk_body h (2 ^ lg / 4)).
Proof.
  intros Hlg Lh Lp. destruct (pk_dims lg Hlg) as (D1 & D2 & D3). set (m := (2 ^ lg / 4)%nat) in *.
  unfold encode_pkey. fold m. rewrite wr_Ok by lia. cbn [bind].
  rewrite group_map_ok.
  - destruct pk as [|p0 pk]; [simpl in Lp; lia|]. cbn [upd]. rewrite firstn_1. rewrite skipn_all2 by (simpl in *; lia).
    rewrite app_nil_r. reflexivity.
  - lia.
  - rewrite upd_length. lia.
  - intros i Hi. rewrite Nat.add_0_l. assert (Ls : length (slice h (4 * i) 4) = 4%nat) by (apply slice_length; lia).
    destruct (slice h (4 * i) 4) as [|a [|b [|c [|d [|e l]]]]]; try discriminate. reflexivity.
Qed.

Lemma decode_pkey_ok lg hd p h0 : falcon_lg lg -> length p = (pkey_len lg - 1)%nat -> length h0 = (2 ^ lg)%nat ->
  decode_pkey lg (hd :: p) h0 =
    Ok (if hd =? Z.of_nat lg then (true, blocks (2 ^ lg / 4) (fun i => pk_unpack (slice p (7 * i) 7)))
        else (false, repeat 0 (2 ^ lg))).
Proof.
  intros Hlg Lp Lh. destruct (pk_dims lg Hlg) as (D1 & D2 & D3). unfold decode_pkey.
  cbn [rd nth_error bind]. destruct (hd =? Z.of_nat lg); cbn [negb].
  - rewrite D3. set (m := (2 ^ lg / 4)%nat) in *. rewrite group_map_all.
    + reflexivity.
    + simpl length. lia.
    + lia.
    + intros i Hi. assert (Ls : length (slice (hd :: p) (1 + 7 * i) 7) = 7%nat) by (apply slice_length; simpl; lia).
      destruct (slice (hd :: p) (1 + 7 * i) 7) as [|a [|b [|c [|d [|e [|f [|g [|k l]]]]]]]]; try discriminate. reflexivity.
  - rewrite wrs_all by (rewrite repeat_length; exact Lh). reflexivity.
Qed.

Lemma pk_round lg h pk h0 : falcon_lg lg -> length h = (2 ^ lg)%nat -> Forall lt14 h -> length pk = pkey_len lg -> length h0 = (2 ^ lg)%nat ->
  exists e, encode_pkey lg h pk = Ok e /\ length e = pkey_len lg /\ bytes e /\ nth 0 e 0 = Z.of_nat lg /\
   decode_pkey lg e h0 = Ok (true, h).
Proof.
  intros Hlg Lh Hh Lp L0. destruct (pk_dims lg Hlg) as (D1 & D2 & D3). rewrite encode_pkey_ok by assumption.
  set (m := (2 ^ lg / 4)%nat) in *. eexists; split; [reflexivity|].
  assert (Lb : length (pk_body h m) = (7 * m)%nat) by (apply pk_body_len; lia).
  split; [simpl; lia|]. split; [|split; [reflexivity|]].
  - apply Forall_cons; [|apply pk_body_bytes; lia]. unfold byte. destruct Hlg as [-> | ->]; lia.
  - rewrite decode_pkey_ok by (auto; lia). rewrite Z.eqb_refl. fold m. do 2 f_equal.
    transitivity (blocks m (fun i => slice h (0 + 4 * i) 4)).
    + apply blocks_ext. intros i Hi. unfold pk_body.
      rewrite (slice_blocks m 7 (fun i => pk_pack (slice h (4 * i) 4))); [|intros j Hj|exact Hi].
      * rewrite Nat.add_0_l. destruct (pk_group h i m) as (a & b & c & d & -> & Ha & Hb & Hc & Hd); auto; [lia|]. apply pk_unpack_pack; assumption.
      * destruct (pk_group h j m) as (a & b & c & d & -> & Ha & Hb & Hc & Hd); auto; lia.
    + rewrite blocks_slice. apply slice_all. lia.
Qed.

Lemma pk_back lg pk h0 e0 : falcon_lg lg -> length pk = pkey_len lg -> bytes pk -> length h0 = (2 ^ lg)%nat -> length e0 = pkey_len lg ->
  (nth 0 pk 0 <> Z.of_nat lg -> decode_pkey lg pk h0 = Ok (false, repeat 0 (2 ^ lg))) /\
  (nth 0 pk 0 = Z.of_nat lg -> exists h, decode_pkey lg pk h0 = Ok (true, h) /\ length h = (2 ^ lg)%nat /\ Forall lt14 h /\
     encode_pkey lg h e0 = Ok pk).
Proof.
  intros Hlg Lp Hp L0 Le. destruct (pk_dims lg Hlg) as (D1 & D2 & D3).
  destruct pk as [|hd p]; [simpl in Lp; lia|]. simpl in Lp. rewrite decode_pkey_ok by (auto; lia).
  cbn [nth]. split; intros Hhd.
  - apply Z.eqb_neq in Hhd. rewrite Hhd. reflexivity.
  - rewrite Hhd, Z.eqb_refl. set (m := (2 ^ lg / 4)%nat) in *. eexists; split; [reflexivity|].
    apply Forall_cons_iff in Hp. destruct Hp as [_ Hp].
    assert (G : forall i, (i < m)%nat -> length (pk_unpack (slice p (7 * i) 7)) = 4%nat /\ Forall lt14 (pk_unpack (slice p (7 * i) 7)) /\
        pk_pack (pk_unpack (slice p (7 * i) 7)) = slice p (7 * i) 7).
    { intros i Hi. destruct (pk_group7 p 0 i m) as (a & b & c & d & e & f & g & E & Ha & Hb & Hc & Hd & He & Hf & Hg); auto; [lia|].
      rewrite Nat.add_0_l in E. rewrite E. split; [rewrite pk_unpack_coeffs by assumption; reflexivity|]. split; [|apply pk_pack_unpack; assumption].
      rewrite pk_unpack_coeffs by assumption. apply pk_coeffs_lt14; assumption. }
    assert (LB : length (blocks m (fun i => pk_unpack (slice p (7 * i) 7))) = (2 ^ lg)%nat).
    { rewrite D1. apply blocks_length. intros i Hi. apply G; exact Hi. }
    split; [exact LB|]. split; [apply Forall_blocks; intros i Hi; apply G; exact Hi|].
    rewrite encode_pkey_ok by auto. do 2 f_equal. fold m. unfold pk_body.
    transitivity (blocks m (fun i => slice p (0 + 7 * i) 7)).
    + apply blocks_ext. intros i Hi. rewrite (slice_blocks m 4 (fun i => pk_unpack (slice p (7 * i) 7))); auto; [|intros j Hj]; apply G; auto.
    + rewrite blocks_slice. apply slice_all. lia.
Qed.

(** Little-endian value. *)
Lemma le_value_app B x y : le_value B (x ++ y) = le_value B x + B ^ Z.of_nat (length x) * le_value B y.
Proof.
  induction x as [|a x IH].
  - cbn [app length]. rewrite Z.pow_0_r. change (le_value B []) with 0. ring.
  - cbn [app length]. rewrite Nat2Z.inj_succ, Z.pow_succ_r by lia.
    change (le_value B (a :: x ++ y)) with (a + B * le_value B (x ++ y)).
    change (le_value B (a :: x)) with (a + B * le_value B x). rewrite IH. ring.
Qed.

Lemma le_blocks A B a b m (f g : nat -> list Z) :
  (forall i, (i < m)%nat -> length (f i) = a /\ length (g i) = b /\ le_value A (f i) = le_value B (g i)) ->
  A ^ Z.of_nat a = B ^ Z.of_nat b ->
  le_value A (blocks m f) = le_value B (blocks m g).
Proof.
  intros H E. induction m as [|m IH]; [reflexivity|]. rewrite !blocks_S, !le_value_app.
  rewrite IH by (intros; apply H; lia). destruct (H m) as (_ & _ & ->); [lia|]. f_equal. f_equal.
  rewrite (blocks_length m a), (blocks_length m b) by (intros; apply H; lia).
  rewrite !Nat2Z.inj_mul, !Z.pow_mul_r, E by lia. reflexivity.
Qed.

Lemma pk_layout lg h pk : falcon_lg lg -> length h = (2 ^ lg)%nat -> Forall lt14 h -> length pk = pkey_len lg ->
  exists b, encode_pkey lg h pk = Ok (Z.of_nat lg :: b) /\ le_value 256 b = le_value (2 ^ 14) h.
Proof.
  intros Hlg Lh Hh Lp. destruct (pk_dims lg Hlg) as (D1 & D2 & D3). rewrite encode_pkey_ok by assumption.
  eexists; split; [reflexivity|]. set (m := (2 ^ lg / 4)%nat) in *.
  transitivity (le_value (2 ^ 14) (blocks m (fun i => slice h (0 + 4 * i) 4))).
  - unfold pk_body. apply (le_blocks 256 (2 ^ 14) 7 4).
    + intros i Hi. destruct (pk_group h i m) as (x0 & x1 & x2 & x3 & E & H0 & H1 & H2 & H3); auto; [lia|].
      rewrite Nat.add_0_l. rewrite E. repeat split. rewrite pk_pack_bytes by assumption. rewrite lt14_range in *.
      unfold pk_bytes. cbn [le_value fold_right]. change (2 ^ 14) with 16384. lia.
    + reflexivity.
  - rewrite blocks_slice. f_equal. apply slice_all. lia.
Qed.

(** ** Secret keys *)
Definition sk_w (lg : nat) : Z := if Nat.eqb lg 9 then 64 else 32.
Definition sk_a (lg : nat) : nat := if Nat.eqb lg 9 then 4%nat else 8%nat.
Definition sk_b (lg : nat) : nat := if Nat.eqb lg 9 then 3%nat else 5%nat.
Definition sk_m (lg : nat) : nat := (2 ^ lg / sk_a lg)%nat.
Definition sk_pk (lg : nat) : list Z -> list Z := if Nat.eqb lg 9 then sk_pack6 else sk_pack5.
Definition sk_up (lg : nat) : list Z -> list Z := if Nat.eqb lg 9 then sk_unpack6 else sk_unpack5.

Lemma sk_dims lg : falcon_lg lg ->
  (2 ^ lg = sk_a lg * sk_m lg /\ skey_len lg = 1 + sk_b lg * sk_m lg + sk_b lg * sk_m lg + 2 ^ lg)%nat.
Proof. intros [-> | ->]; vm_compute; auto. Qed.

Lemma sk_pk_len lg f : falcon_lg lg -> length f = sk_a lg -> length (sk_pk lg f) = sk_b lg /\ bytes (sk_pk lg f).
Proof.
  intros [-> | ->]; unfold sk_pk, sk_a, sk_b; cbn [Nat.eqb]; intros L; len_cases f L.
  - split; [reflexivity|]. unfold sk_pack6. cbv zeta. repeat (apply Forall_cons; [apply u8_byte|]). apply Forall_nil.
  - split; [reflexivity|]. unfold sk_pack5. cbv zeta. repeat (apply Forall_cons; [apply u8_byte|]). apply Forall_nil.
Qed.

Lemma sk_round lg f : falcon_lg lg -> length f = sk_a lg -> Forall (fits (sk_w lg)) f -> sk_up lg (sk_pk lg f) = f.
Proof.
  intros [-> | ->]; unfold sk_pk, sk_up, sk_a, sk_w; cbn [Nat.eqb]; intros L H; [apply sk6_round|apply sk5_round]; assumption.
Qed.

Lemma sk_back lg s : falcon_lg lg -> length s = sk_b lg -> bytes s ->
  length (sk_up lg s) = sk_a lg /\ Forall (fits (sk_w lg)) (sk_up lg s) /\ sk_pk lg (sk_up lg s) = s.
Proof.
  intros [-> | ->]; unfold sk_pk, sk_up, sk_a, sk_b, sk_w; cbn [Nat.eqb]; intros L H; [apply sk6_back|apply sk5_back]; assumption.
Qed.

Definition sk_fg (lg : nat) (f : list Z) : list Z := blocks (sk_m lg) (fun i => sk_pk lg (slice f (sk_a lg * i) (sk_a lg))).

Lemma sk_fg_len lg f : falcon_lg lg -> length f = (2 ^ lg)%nat -> length (sk_fg lg f) = (sk_b lg * sk_m lg)%nat /\ bytes (sk_fg lg f).
Proof.
  intros Hlg L. destruct (sk_dims lg Hlg) as (D1 & D2).
  assert (G : forall i, (i < sk_m lg)%nat -> length (slice f (sk_a lg * i) (sk_a lg)) = sk_a lg).
  { intros i Hi. apply slice_length. rewrite L, D1. nia. }
  split; [apply blocks_length|apply Forall_blocks]; intros i Hi; apply sk_pk_len; auto.
Qed.

Lemma blocks_map1 (f : Z -> Z) n src o : (o + n <= length src)%nat ->
  blocks n (fun i => map f (slice src (o + 1 * i) 1)) = map f (slice src o n).
Proof.
  intros H. transitivity (map f (blocks n (fun i => slice src (o + 1 * i) 1))).
  - unfold blocks. rewrite concat_map, map_map. reflexivity.
  - rewrite blocks_slice. rewrite Nat.mul_1_l. reflexivity.
Qed.

Lemma skipn_app_len {A} (x y : list A) n : length x = n -> skipn n (x ++ y) = y.
Proof. intros <-. rewrite skipn_app, Nat.sub_diag, skipn_all2 by lia. reflexivity. Qed.
Lemma firstn_app_len {A} (x y : list A) n : length x = n -> firstn n (x ++ y) = x.
Proof. intros <-. rewrite firstn_app, Nat.sub_diag, firstn_all2 by lia. apply app_nil_r. Qed.

Lemma split3 {A} (l : list A) a b : (a + b <= length l)%nat ->
  exists x y z, l = x ++ y ++ z /\ length x = a /\ length y = b.
Proof.
  intros H. exists (firstn a l), (firstn b (skipn a l)), (skipn b (skipn a l)).
  rewrite !firstn_skipn. rewrite !firstn_length, skipn_length. repeat split; lia.
Qed.

Lemma group_map_mid a b n soff op src (x y z : list Z) :
  (soff + a * n <= length src)%nat -> length y = (b * n)%nat ->
  (forall i, (i < n)%nat -> length (op (slice src (soff + a * i) a)) = b) ->
  group_map a b n soff (length x) op src (x ++ y ++ z) =
  Ok (x ++ blocks n (fun i => op (slice src (soff + a * i) a)) ++ z).
Proof.
  intros Hs Hd Hop. rewrite group_map_ok by (auto; rewrite !app_length; lia).
  rewrite firstn_app_len by reflexivity. rewrite (app_assoc x y z), (skipn_app_len (x ++ y)) by (rewrite app_length; lia). reflexivity.
Qed.

Lemma encode_skey_ok lg f g F sk : falcon_lg lg -> length f = (2 ^ lg)%nat -> length g = (2 ^ lg)%nat -> length F = (2 ^ lg)%nat ->
  length sk = skey_len lg ->
  encode_skey lg f g F sk = Ok (80 + Z.of_nat lg :: sk_fg lg f ++ sk_fg lg g ++ map u8 F).
Proof.
  intros Hlg Lf Lg LF Ls. destruct (sk_dims lg Hlg) as (D1 & D2).
  destruct (sk_fg_len lg f Hlg Lf) as [Lff _]. destruct (sk_fg_len lg g Hlg Lg) as [Lgg _].
  assert (Gf : forall i, (i < sk_m lg)%nat -> length (sk_pk lg (slice f (0 + sk_a lg * i) (sk_a lg))) = sk_b lg).
  { intros i Hi. apply sk_pk_len; auto. apply slice_length. rewrite Lf, D1. nia. }
  assert (Gg : forall i, (i < sk_m lg)%nat -> length (sk_pk lg (slice g (0 + sk_a lg * i) (sk_a lg))) = sk_b lg).
  { intros i Hi. apply sk_pk_len; auto. apply slice_length. rewrite Lg, D1. nia. }
  unfold encode_skey. rewrite wr_Ok by lia. cbn [bind].
  assert (Hh : 80 .| Z.of_nat lg = 80 + Z.of_nat lg) by (destruct Hlg as [-> | ->]; reflexivity). rewrite Hh. clear Hh.
  transitivity (
    skey <- group_map (sk_a lg) (sk_b lg) (sk_m lg) 0 1 (sk_pk lg) f (upd sk 0 (80 + Z.of_nat lg)) ;;
    skey <- group_map (sk_a lg) (sk_b lg) (sk_m lg) 0 (1 + sk_b lg * sk_m lg) (sk_pk lg) g skey ;;
    group_map 1 1 (2 ^ lg) 0 (1 + sk_b lg * sk_m lg + sk_b lg * sk_m lg) (map u8) F skey).
  { destruct Hlg as [-> | ->]; unfold sk_a, sk_b, sk_pk, sk_m; cbn [Nat.eqb]; unfold sk_a; cbn [Nat.eqb];
    match goal with |- (bind (bind ?e ?k1) ?k2) = _ => destruct e as [e1| |]; cbn [bind]; try reflexivity end;
    match goal with |- (bind (bind ?e ?k1) ?k2) = _ => destruct e as [e2| |]; cbn [bind]; try reflexivity end. }
  destruct sk as [|s0 sk]; [simpl in Ls; lia|]. cbn [upd]. set (hd := 80 + Z.of_nat lg). simpl in Ls.
  destruct (split3 sk (sk_b lg * sk_m lg) (sk_b lg * sk_m lg)) as (y1 & y2 & y3 & -> & L1 & L2); [lia|].
  rewrite !app_length in Ls.
  change (hd :: y1 ++ y2 ++ y3) with ([hd] ++ y1 ++ (y2 ++ y3)).
  rewrite (group_map_mid (sk_a lg) (sk_b lg) (sk_m lg) 0 _ f [hd] y1 (y2 ++ y3)); [|lia|exact L1|exact Gf]. cbn [bind].
  change (blocks (sk_m lg) (fun i => sk_pk lg (slice f (0 + sk_a lg * i) (sk_a lg)))) with (sk_fg lg f).
  replace (1 + sk_b lg * sk_m lg)%nat with (length ([hd] ++ sk_fg lg f)) by (rewrite app_length, Lff; reflexivity).
  replace ([hd] ++ sk_fg lg f ++ y2 ++ y3) with (([hd] ++ sk_fg lg f) ++ y2 ++ y3) by (rewrite <- app_assoc; reflexivity).
  rewrite (group_map_mid (sk_a lg) (sk_b lg) (sk_m lg) 0 _ g _ y2 y3); [|lia|exact L2|exact Gg]. cbn [bind].
  change (blocks (sk_m lg) (fun i => sk_pk lg (slice g (0 + sk_a lg * i) (sk_a lg)))) with (sk_fg lg g).
  replace (length ([hd] ++ sk_fg lg f) + sk_b lg * sk_m lg)%nat with (length (([hd] ++ sk_fg lg f) ++ sk_fg lg g))
    by (rewrite !app_length, Lgg; lia).
  replace (([hd] ++ sk_fg lg f) ++ sk_fg lg g ++ y3) with ((([hd] ++ sk_fg lg f) ++ sk_fg lg g) ++ y3 ++ []) by (rewrite app_nil_r, <- !app_assoc; reflexivity).
  rewrite (group_map_mid 1 1 (2 ^ lg) 0 _ F _ y3 []); [|lia|lia|].
  - rewrite blocks_map1 by lia. rewrite slice_all by exact LF. rewrite app_nil_r, <- !app_assoc. reflexivity.
  - intros i Hi. rewrite map_length. apply slice_length. lia.
Qed.

Lemma decode_skey_ok lg hd s1 s2 s3 f0 g0 F0 : falcon_lg lg ->
  length s1 = (sk_b lg * sk_m lg)%nat -> length s2 = (sk_b lg * sk_m lg)%nat -> length s3 = (2 ^ lg)%nat ->
  bytes s1 -> bytes s2 ->
  length f0 = (2 ^ lg)%nat -> length g0 = (2 ^ lg)%nat -> length F0 = (2 ^ lg)%nat ->
  decode_skey lg (hd :: s1 ++ s2 ++ s3) f0 g0 F0 =
    Ok (if hd =? 80 + Z.of_nat lg then
          (true, (blocks (sk_m lg) (fun i => sk_up lg (slice s1 (sk_b lg * i) (sk_b lg))),
                  blocks (sk_m lg) (fun i => sk_up lg (slice s2 (sk_b lg * i) (sk_b lg))),
                  map (sk_sign 256) s3))
        else (false, (repeat 0 (2 ^ lg), repeat 0 (2 ^ lg), repeat 0 (2 ^ lg)))).
Proof.
  intros Hlg L1 L2 L3 B1 B2 Lf Lg LF. destruct (sk_dims lg Hlg) as (D1 & D2).
  unfold decode_skey. cbn [rd nth_error bind].
  assert (Hh : 80 .| Z.of_nat lg = 80 + Z.of_nat lg) by (destruct Hlg as [-> | ->]; reflexivity). rewrite Hh. clear Hh.
  destruct (hd =? 80 + Z.of_nat lg); cbn [negb].
  2: { rewrite !wrs_all by (rewrite repeat_length; assumption). reflexivity. }
  set (skey := hd :: s1 ++ s2 ++ s3).
  assert (S1 : forall i, (i < sk_m lg)%nat -> slice skey (1 + sk_b lg * i) (sk_b lg) = slice s1 (sk_b lg * i) (sk_b lg)).
  { intros i Hi. unfold skey. change (hd :: s1 ++ s2 ++ s3) with ([hd] ++ s1 ++ s2 ++ s3).
    change (1 + sk_b lg * i)%nat with (length [hd] + sk_b lg * i)%nat. rewrite slice_app2, slice_app1; [reflexivity|]. rewrite L1. nia. }
  assert (S2 : forall i, (i < sk_m lg)%nat -> slice skey (1 + sk_b lg * sk_m lg + sk_b lg * i) (sk_b lg) = slice s2 (sk_b lg * i) (sk_b lg)).
  { intros i Hi. unfold skey. change (hd :: s1 ++ s2 ++ s3) with ((hd :: s1) ++ s2 ++ s3).
    rewrite <- L1. change (1 + length s1 + sk_b lg * i)%nat with (length (hd :: s1) + sk_b lg * i)%nat. rewrite slice_app2, slice_app1; [reflexivity|]. rewrite L2. nia. }
  assert (Lk : length skey = (1 + sk_b lg * sk_m lg + sk_b lg * sk_m lg + 2 ^ lg)%nat) by (unfold skey; simpl; rewrite !app_length; lia).
  transitivity (
    f <- group_map (sk_b lg) (sk_a lg) (sk_m lg) 1 0 (sk_up lg) skey f0 ;;
    g <- group_map (sk_b lg) (sk_a lg) (sk_m lg) (1 + sk_b lg * sk_m lg) 0 (sk_up lg) skey g0 ;;
    F <- group_map 1 1 (2 ^ lg) (1 + sk_b lg * sk_m lg + sk_b lg * sk_m lg) 0 (map (sk_sign 256)) skey F0 ;;
    Ok (true, (f, g, F))).
  { destruct Hlg as [-> | ->]; unfold sk_a, sk_b, sk_up, sk_m; cbn [Nat.eqb]; unfold sk_a; cbn [Nat.eqb];
    match goal with |- (bind (bind ?e ?k1) ?k2) = _ => destruct e as [e1| |]; cbn [bind]; try reflexivity end;
    match goal with |- (bind (bind ?e ?k1) ?k2) = _ => destruct e as [e2| |]; cbn [bind]; try reflexivity end. }
  assert (U1 : forall i, (i < sk_m lg)%nat -> length (sk_up lg (slice skey (1 + sk_b lg * i) (sk_b lg))) = sk_a lg).
  { intros i Hi. rewrite S1 by exact Hi. apply sk_back; [exact Hlg|apply slice_length; nia|apply Forall_slice; exact B1]. }
  assert (U2 : forall i, (i < sk_m lg)%nat -> length (sk_up lg (slice skey (1 + sk_b lg * sk_m lg + sk_b lg * i) (sk_b lg))) = sk_a lg).
  { intros i Hi. rewrite S2 by exact Hi. apply sk_back; [exact Hlg|apply slice_length; nia|apply Forall_slice; exact B2]. }
  rewrite group_map_all; [|lia|lia|exact U1]. cbn [bind].
  rewrite group_map_all; [|lia|lia|exact U2]. cbn [bind].
  rewrite group_map_all; [|lia|lia|]. 2: { intros i Hi. rewrite map_length. apply slice_length. lia. }
  cbn [bind].
  do 3 f_equal; [f_equal|].
  - apply blocks_ext. intros i Hi. rewrite S1 by exact Hi. reflexivity.
  - apply blocks_ext. intros i Hi. rewrite S2 by exact Hi. reflexivity.
  - rewrite blocks_map1 by lia. f_equal. unfold skey.
    change (hd :: s1 ++ s2 ++ s3) with ((hd :: s1) ++ s2 ++ s3). rewrite app_assoc.
    replace (1 + sk_b lg * sk_m lg + sk_b lg * sk_m lg)%nat with (length ((hd :: s1) ++ s2) + 0)%nat by (rewrite app_length; simpl; lia).
    rewrite slice_app2. apply slice_all. exact L3.
Qed.

Lemma sk_fg_round lg f : falcon_lg lg -> length f = (2 ^ lg)%nat -> Forall (fits (sk_w lg)) f ->
  blocks (sk_m lg) (fun i => sk_up lg (slice (sk_fg lg f) (sk_b lg * i) (sk_b lg))) = f.
Proof.
  intros Hlg L H. destruct (sk_dims lg Hlg) as (D1 & D2).
  transitivity (blocks (sk_m lg) (fun i => slice f (0 + sk_a lg * i) (sk_a lg))).
  - apply blocks_ext. intros i Hi. rewrite Nat.add_0_l. unfold sk_fg.
    assert (G : forall i, (i < sk_m lg)%nat -> length (slice f (sk_a lg * i) (sk_a lg)) = sk_a lg).
    { intros j Hj. apply slice_length. rewrite L, D1. nia. }
    rewrite (slice_blocks (sk_m lg) (sk_b lg) (fun i => sk_pk lg (slice f (sk_a lg * i) (sk_a lg)))); [|intros j Hj; apply sk_pk_len; auto|exact Hi].
    apply sk_round; auto. apply Forall_slice; exact H.
  - rewrite blocks_slice. apply slice_all. lia.
Qed.

Lemma map_u8_sign F : Forall (fits 256) F -> map (sk_sign 256) (map u8 F) = F.
Proof.
  intros H. rewrite map_map. rewrite <- (map_id F) at 2. apply map_ext_in. intros x Hx.
  rewrite Forall_forall in H. change (u8 x) with (x mod 256). apply sk_sign_mod; [lia|reflexivity|apply H; exact Hx].
Qed.

Lemma skey_round lg f g F sk f0 g0 F0 : falcon_lg lg ->
  length f = (2 ^ lg)%nat -> length g = (2 ^ lg)%nat -> length F = (2 ^ lg)%nat -> length sk = skey_len lg ->
  length f0 = (2 ^ lg)%nat -> length g0 = (2 ^ lg)%nat -> length F0 = (2 ^ lg)%nat ->
  exists e, encode_skey lg f g F sk = Ok e /\ length e = skey_len lg /\ bytes e /\ nth 0 e 0 = 80 + Z.of_nat lg /\
   (decode_skey lg e f0 g0 F0 = Ok (true, (f, g, F)) <->
    Forall (fits (sk_w lg)) f /\ Forall (fits (sk_w lg)) g /\ Forall (fits 256) F).
Proof.
  intros Hlg Lf Lg LF Ls Lf0 Lg0 LF0. destruct (sk_dims lg Hlg) as (D1 & D2).
  rewrite encode_skey_ok by assumption. eexists; split; [reflexivity|].
  destruct (sk_fg_len lg f Hlg Lf) as [Lff Bf]. destruct (sk_fg_len lg g Hlg Lg) as [Lgg Bg].
  assert (BF : bytes (map u8 F)) by (apply Forall_forall; intros x Hx; apply in_map_iff in Hx; destruct Hx as (y & <- & _); apply u8_byte).
  split; [simpl; rewrite !app_length, map_length; lia|]. split.
  { apply Forall_cons; [unfold byte; destruct Hlg as [-> | ->]; lia|]. repeat (apply Forall_app; split); assumption. }
  split; [reflexivity|]. rewrite decode_skey_ok by (auto; rewrite ?map_length; auto). rewrite Z.eqb_refl. split.
  - intros E. injection E as E1 E2 E3.
    assert (Fit : forall f, length f = (2 ^ lg)%nat -> Forall (fits (sk_w lg)) (blocks (sk_m lg) (fun i => sk_up lg (slice (sk_fg lg f) (sk_b lg * i) (sk_b lg))))).
    { intros f' Lf'. destruct (sk_fg_len lg f' Hlg Lf') as [Lff' Bf']. apply Forall_blocks. intros i Hi.
      apply sk_back; [exact Hlg|apply slice_length; nia|apply Forall_slice; exact Bf']. }
    split; [rewrite <- E1; apply Fit; exact Lf|]. split; [rewrite <- E2; apply Fit; exact Lg|].
    rewrite <- E3. apply Forall_forall. intros x Hx. apply in_map_iff in Hx. destruct Hx as (y & <- & Hy).
    unfold bytes in BF. rewrite Forall_forall in BF. apply sk_sign_fits; [lia|reflexivity|apply BF; exact Hy].
  - intros (Hf & Hg & HF). rewrite !sk_fg_round by assumption. rewrite map_u8_sign by exact HF. reflexivity.
Qed.

Lemma skey_back lg sk f0 g0 F0 e0 : falcon_lg lg -> length sk = skey_len lg -> bytes sk ->
  length f0 = (2 ^ lg)%nat -> length g0 = (2 ^ lg)%nat -> length F0 = (2 ^ lg)%nat -> length e0 = skey_len lg ->
  (nth 0 sk 0 <> 80 + Z.of_nat lg ->
     decode_skey lg sk f0 g0 F0 = Ok (false, (repeat 0 (2 ^ lg), repeat 0 (2 ^ lg), repeat 0 (2 ^ lg)))) /\
  (nth 0 sk 0 = 80 + Z.of_nat lg -> exists f g F, decode_skey lg sk f0 g0 F0 = Ok (true, (f, g, F)) /\
     length f = (2 ^ lg)%nat /\ length g = (2 ^ lg)%nat /\ length F = (2 ^ lg)%nat /\
     Forall (fits (sk_w lg)) f /\ Forall (fits (sk_w lg)) g /\ Forall (fits 256) F /\
     encode_skey lg f g F e0 = Ok sk).
Proof.
  intros Hlg Ls Bs Lf Lg LF Le. destruct (sk_dims lg Hlg) as (D1 & D2).
  destruct sk as [|hd sk]; [simpl in Ls; lia|]. simpl in Ls. apply Forall_cons_iff in Bs. destruct Bs as [Bh Bs].
  destruct (split3 sk (sk_b lg * sk_m lg) (sk_b lg * sk_m lg)) as (s1 & s2 & s3 & -> & L1 & L2); [lia|].
  rewrite !app_length in Ls. assert (L3 : length s3 = (2 ^ lg)%nat) by lia.
  apply Forall_app in Bs. destruct Bs as [B1 Bs]. apply Forall_app in Bs. destruct Bs as [B2 B3].
  rewrite decode_skey_ok by assumption. cbn [nth]. split; intros Hhd.
  - apply Z.eqb_neq in Hhd. rewrite Hhd. reflexivity.
  - rewrite Hhd, Z.eqb_refl. do 3 eexists. split; [reflexivity|].
    assert (G : forall s, length s = (sk_b lg * sk_m lg)%nat -> bytes s ->
      let u := blocks (sk_m lg) (fun i => sk_up lg (slice s (sk_b lg * i) (sk_b lg))) in
      length u = (2 ^ lg)%nat /\ Forall (fits (sk_w lg)) u /\ sk_fg lg u = s).
    { intros s L B. assert (GG : forall i, (i < sk_m lg)%nat -> length (sk_up lg (slice s (sk_b lg * i) (sk_b lg))) = sk_a lg /\
        Forall (fits (sk_w lg)) (sk_up lg (slice s (sk_b lg * i) (sk_b lg))) /\ sk_pk lg (sk_up lg (slice s (sk_b lg * i) (sk_b lg))) = slice s (sk_b lg * i) (sk_b lg)).
      { intros i Hi. apply sk_back; [exact Hlg|apply slice_length; nia|apply Forall_slice; exact B]. }
      cbv zeta. split; [rewrite D1; apply blocks_length; intros; apply GG; assumption|].
      split; [apply Forall_blocks; intros; apply GG; assumption|]. unfold sk_fg.
      transitivity (blocks (sk_m lg) (fun i => slice s (0 + sk_b lg * i) (sk_b lg))).
      - apply blocks_ext. intros i Hi.
        rewrite (slice_blocks (sk_m lg) (sk_a lg) (fun i => sk_up lg (slice s (sk_b lg * i) (sk_b lg)))); [|intros; apply GG; assumption|exact Hi].
        apply GG; exact Hi.
      - rewrite blocks_slice. apply slice_all. lia. }
    destruct (G s1 L1 B1) as (U1 & U2 & U3). destruct (G s2 L2 B2) as (V1 & V2 & V3).
    assert (W : Forall (fits 256) (map (sk_sign 256) s3) /\ map u8 (map (sk_sign 256) s3) = s3).
    { unfold bytes in B3. rewrite Forall_forall in B3. split.
      - apply Forall_forall. intros x Hx. apply in_map_iff in Hx. destruct Hx as (y & <- & Hy).
        apply sk_sign_fits; [lia|reflexivity|apply B3; exact Hy].
      - rewrite map_map. rewrite <- (map_id s3) at 2. apply map_ext_in. intros x Hx.
        apply (sk_sign_fits 256 x); [lia|reflexivity|apply B3; exact Hx]. }
    repeat (split; [first [assumption|rewrite map_length; exact L3|apply W]|]).
    rewrite encode_skey_ok by (auto; rewrite ?map_length; auto). rewrite U3, V3, (proj2 W), Hhd || rewrite U3, V3, (proj2 W). reflexivity.
Qed.

(** Secret key layout: f, g as little-endian numbers in base 64 (or 32), F one byte each. *)
Lemma sk_pk_value lg f : falcon_lg lg -> length f = sk_a lg -> Forall (fits (sk_w lg)) f ->
  le_value 256 (sk_pk lg f) = le_value (sk_w lg) (map (fun x => x mod sk_w lg) f).
Proof.
  intros [-> | ->]; unfold sk_pk, sk_a, sk_w; cbn [Nat.eqb]; intros L H; len_cases f L;
  repeat match goal with F : Forall _ (_ :: _) |- _ => apply Forall_cons_iff in F; destruct F as [? F] end.
  - unfold sk_pack6. rewrite !sk_u8_mod by (assumption || lia || reflexivity). cbv zeta.
    rewrite pack6_arith by (apply modb; lia). cbn [map]. unfold bytes6. cbn [le_value fold_right].
    generalize (modb 64 x1 ltac:(lia)), (modb 64 x0 ltac:(lia)), (modb 64 x ltac:(lia)), (modb 64 x2 ltac:(lia)).
    generalize (x mod 64), (x0 mod 64), (x1 mod 64), (x2 mod 64). clear. intros. lia.
  - unfold sk_pack5. rewrite !sk_u8_mod by (assumption || lia || reflexivity). cbv zeta.
    rewrite pack5_arith by (apply modb; lia). cbn [map]. unfold bytes5. cbn [le_value fold_right].
    generalize (modb 32 x1 ltac:(lia)), (modb 32 x0 ltac:(lia)), (modb 32 x ltac:(lia)), (modb 32 x2 ltac:(lia)).
    generalize (modb 32 x3 ltac:(lia)), (modb 32 x4 ltac:(lia)), (modb 32 x5 ltac:(lia)), (modb 32 x6 ltac:(lia)).
    generalize (x mod 32), (x0 mod 32), (x1 mod 32), (x2 mod 32), (x3 mod 32), (x4 mod 32), (x5 mod 32), (x6 mod 32). clear. intros. lia.
Qed.

Lemma sk_fg_value lg f : falcon_lg lg -> length f = (2 ^ lg)%nat -> Forall (fits (sk_w lg)) f ->
  le_value 256 (sk_fg lg f) = le_value (sk_w lg) (map (fun x => x mod sk_w lg) f).
Proof.
  intros Hlg L H. destruct (sk_dims lg Hlg) as (D1 & D2).
  transitivity (le_value (sk_w lg) (blocks (sk_m lg) (fun i => map (fun x => x mod sk_w lg) (slice f (0 + sk_a lg * i) (sk_a lg))))).
  - unfold sk_fg. apply (le_blocks 256 (sk_w lg) (sk_b lg) (sk_a lg)).
    + intros i Hi. rewrite Nat.add_0_l.
      assert (G : length (slice f (sk_a lg * i) (sk_a lg)) = sk_a lg) by (apply slice_length; rewrite L, D1; nia).
      split; [apply sk_pk_len; assumption|]. split; [rewrite map_length; exact G|].
      apply sk_pk_value; auto. apply Forall_slice; exact H.
    + destruct Hlg as [-> | ->]; reflexivity.
  - f_equal. transitivity (map (fun x => x mod sk_w lg) (blocks (sk_m lg) (fun i => slice f (0 + sk_a lg * i) (sk_a lg)))).
    + unfold blocks. rewrite concat_map, map_map. reflexivity.
    + rewrite blocks_slice. f_equal. apply slice_all. lia.
Qed.

Lemma skey_layout lg f g F sk : falcon_lg lg ->
  length f = (2 ^ lg)%nat -> length g = (2 ^ lg)%nat -> length F = (2 ^ lg)%nat -> length sk = skey_len lg ->
  Forall (fits (skey_modulus lg)) f -> Forall (fits (skey_modulus lg)) g -> Forall (fits 256) F ->
  exists bf bg bF, encode_skey lg f g F sk = Ok (80 + Z.of_nat lg :: bf ++ bg ++ bF) /\
    (8 * length bf = skey_bits lg * 2 ^ lg)%nat /\ (8 * length bg = skey_bits lg * 2 ^ lg)%nat /\
    le_value 256 bf = le_value (skey_modulus lg) (map (fun x => x mod skey_modulus lg) f) /\
    le_value 256 bg = le_value (skey_modulus lg) (map (fun x => x mod skey_modulus lg) g) /\
    bF = map (fun x => x mod 256) F.
Proof.
  intros Hlg Lf Lg LF Ls Hf Hg HF. exists (sk_fg lg f), (sk_fg lg g), (map u8 F).
  split; [apply encode_skey_ok; assumption|].
  assert (D : (8 * (sk_b lg * sk_m lg) = skey_bits lg * 2 ^ lg)%nat) by (destruct Hlg as [-> | ->]; vm_compute; reflexivity).
  split; [rewrite (proj1 (sk_fg_len lg f Hlg Lf)); exact D|]. split; [rewrite (proj1 (sk_fg_len lg g Hlg Lg)); exact D|].
  split; [apply sk_fg_value; assumption|]. split; [apply sk_fg_value; assumption|reflexivity].
Qed.

(** Statement-level forms *)
Lemma pkey_noncanonical lg (h0 e0 : list Z) : falcon_lg lg -> length h0 = (2 ^ lg)%nat -> length e0 = pkey_len lg ->
  exists pk h, length pk = pkey_len lg /\ bytes pk /\ decode_pkey lg pk h0 = Ok (true, h) /\ ~ Forall canon h.
Proof.
  intros Hlg Lh Le. assert (P : (0 < 2 ^ lg)%nat) by (destruct Hlg as [-> | ->]; vm_compute; lia).
  destruct (pk_round lg (repeat 16383 (2 ^ lg)) e0 h0 Hlg (repeat_length _ _)) as (pk & _ & L & B & _ & D); auto.
  { apply Forall_forall. intros x Hx. apply repeat_spec in Hx. subst x. unfold lt14. change (2 ^ 14) with 16384. lia. }
  exists pk, (repeat 16383 (2 ^ lg)). repeat split; auto. intros H. destruct (2 ^ lg)%nat; [lia|].
  cbn [repeat] in H. apply Forall_cons_iff in H. destruct H as [H _]. unfold canon, q in H. lia.
Qed.

Lemma pkey_alias lg (h0 e0 : list Z) : falcon_lg lg -> length h0 = (2 ^ lg)%nat -> length e0 = pkey_len lg ->
  exists pk pk' h h', pk <> pk' /\ bytes pk /\ bytes pk' /\ length pk = pkey_len lg /\ length pk' = pkey_len lg /\
    decode_pkey lg pk h0 = Ok (true, h) /\ decode_pkey lg pk' h0 = Ok (true, h') /\ modq h = modq h'.
Proof.
  intros Hlg Lh Le.
  assert (R : forall v, 0 <= v < 16384 -> Forall lt14 (repeat v (2 ^ lg))).
  { intros v Hv. apply Forall_forall. intros x Hx. apply repeat_spec in Hx. subst x. unfold lt14. change (2 ^ 14) with 16384. lia. }
  destruct (pk_round lg (repeat 12289 (2 ^ lg)) e0 h0 Hlg (repeat_length _ _)) as (pk & E & L & B & _ & D); auto; [apply R; lia|].
  destruct (pk_round lg (repeat 0 (2 ^ lg)) e0 h0 Hlg (repeat_length _ _)) as (pk' & E' & L' & B' & _ & D'); auto; [apply R; lia|].
  exists pk, pk', (repeat 12289 (2 ^ lg)), (repeat 0 (2 ^ lg)). repeat split; auto.
  - intros ->. rewrite D in D'. injection D' as D'. destruct (2 ^ lg)%nat eqn:E2; [destruct Hlg as [-> | ->]; discriminate|]. discriminate.
  - unfold modq. generalize (2 ^ lg)%nat; clear; intros n; induction n as [|n IH]; [reflexivity|]; simpl; f_equal; exact IH.
Qed.

Lemma skey_lossy lg (sk f0 g0 F0 : list Z) : falcon_lg lg -> length sk = skey_len lg ->
  length f0 = (2 ^ lg)%nat -> length g0 = (2 ^ lg)%nat -> length F0 = (2 ^ lg)%nat ->
  exists f g F F' e, length f = (2 ^ lg)%nat /\ length g = (2 ^ lg)%nat /\ length F = (2 ^ lg)%nat /\
    encode_skey lg f g F sk = Ok e /\ decode_skey lg e f0 g0 F0 = Ok (true, (f, g, F')) /\ F' <> F.
Proof.
  intros Hlg Ls Lf Lg LF.
  set (z := repeat 0 (2 ^ lg)). set (F := repeat 128 (2 ^ lg)). set (F' := repeat (-128) (2 ^ lg)).
  assert (Lz : length z = (2 ^ lg)%nat) by apply repeat_length. assert (LF1 : length F = (2 ^ lg)%nat) by apply repeat_length.
  assert (LF' : length F' = (2 ^ lg)%nat) by apply repeat_length.
  assert (Hz : Forall (fits (sk_w lg)) z).
  { apply Forall_forall. intros x Hx. apply repeat_spec in Hx. subst x. unfold fits, sk_w. destruct (Nat.eqb lg 9); vm_compute; split; congruence. }
  destruct (skey_round lg z z F' sk f0 g0 F0 Hlg Lz Lz LF' Ls Lf Lg LF) as (e & E & _ & _ & _ & D).
  exists z, z, F, F', e. repeat (split; [assumption|]). split; [|split].
  - rewrite <- E. rewrite !encode_skey_ok by assumption. do 4 f_equal. unfold F, F'.
    generalize (2 ^ lg)%nat; clear; intros n; induction n as [|n IH]; [reflexivity|]; simpl; f_equal; exact IH.
  - apply D. repeat split; auto. apply Forall_forall. intros x Hx. apply repeat_spec in Hx. subst x. unfold fits. vm_compute; split; congruence.
  - unfold F, F'. destruct (2 ^ lg)%nat eqn:E2; [destruct Hlg as [-> | ->]; discriminate|]. discriminate.
Qed.
