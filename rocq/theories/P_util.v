(** P_util.v -- proofs for M_util: hex helpers, generator seed. *)
From Verif Require Import Base Spec M_codec M_sig M_verify M_samp M_float M_fft M_ntru M_tree M_util P_signb P_signv.
Open Scope Z_scope.

(** ** hex *)
Lemma hexval_char d : 0 <= d < 16 -> hexval (hexchar d) = Some d.
Proof. intros H. assert (d = 0 \/ d = 1 \/ d = 2 \/ d = 3 \/ d = 4 \/ d = 5 \/ d = 6 \/ d = 7 \/ d = 8 \/ d = 9 \/ d = 10 \/ d = 11 \/ d = 12 \/ d = 13 \/ d = 14 \/ d = 15) as K by lia.
  repeat (destruct K as [->|K]; [reflexivity|]). subst d. reflexivity. Qed.
Lemma hexchar_range d : 0 <= d < 16 -> 48 <= hexchar d <= 57 \/ 97 <= hexchar d <= 102.
Proof. intros H. unfold hexchar. destruct (Z.ltb_spec d 10); lia. Qed.
Lemma hexchar_code d : 0 <= d < 16 -> hexchar d = nth (Z.to_nat d) [48; 49; 50; 51; 52; 53; 54; 55; 56; 57; 97; 98; 99; 100; 101; 102] 0.
Proof. intros H. assert (d = 0 \/ d = 1 \/ d = 2 \/ d = 3 \/ d = 4 \/ d = 5 \/ d = 6 \/ d = 7 \/ d = 8 \/ d = 9 \/ d = 10 \/ d = 11 \/ d = 12 \/ d = 13 \/ d = 14 \/ d = 15) as K by lia.
  repeat (destruct K as [->|K]; [reflexivity|]). subst d. reflexivity. Qed.

Lemma hex_byte b : byte b -> pad2 (hex_digits 8 (u32 b)) = [hexchar (b / 16); hexchar (b mod 16)].
Proof.
  intros Hb. unfold byte in Hb. replace (u32 b) with b by (unfold u32; symmetry; apply Z.mod_small; lia).
  change (hex_digits 8 b) with (if b <? 16 then [hexchar b] else hex_digits 7 (b / 16) ++ [hexchar (b mod 16)]).
  destruct (Z.ltb_spec b 16) as [H|H].
  - unfold pad2. cbn [length Nat.sub repeat app]. rewrite (Z.div_small b 16), (Z.mod_small b 16) by lia. reflexivity.
  - assert (0 <= b / 16 < 16). { split; [apply Z.div_pos; lia|apply Z.div_lt_upper_bound; lia]. }
    change (hex_digits 7 (b / 16)) with (if b / 16 <? 16 then [hexchar (b / 16)] else hex_digits 6 (b / 16 / 16) ++ [hexchar ((b / 16) mod 16)]).
    destruct (Z.ltb_spec (b / 16) 16); [reflexivity|lia].
Qed.
Lemma to_hex_cons b l : byte b -> to_hex (b :: l) = hexchar (b / 16) :: hexchar (b mod 16) :: to_hex l.
Proof. intros H. unfold to_hex. cbn [flat_map]. rewrite hex_byte by exact H. reflexivity. Qed.
Lemma to_hex_length l : bytes l -> length (to_hex l) = (2 * length l)%nat.
Proof. induction l as [|b l IH]; intros H; [reflexivity|]. inversion H; subst. rewrite to_hex_cons by assumption. cbn [length]. rewrite IH by assumption. lia. Qed.
Lemma nibbles b : byte b -> 0 <= b / 16 < 16 /\ 0 <= b mod 16 < 16 /\ b = 16 * (b / 16) + b mod 16.
Proof. unfold byte. intros H. split; [split; [apply Z.div_pos; lia|apply Z.div_lt_upper_bound; lia]|]. split; [apply Z.mod_pos_bound; lia|apply Z.div_mod; lia]. Qed.

(** the value of two hex digits *)
Lemma not_special c v : hexval c = Some v -> is_space c = false /\ (c =? 45) = false /\ (c =? 43) = false.
Proof.
  unfold hexval, is_space. intros H.
  destruct (Z.leb_spec 48 c), (Z.leb_spec c 57); cbn [andb] in H;
  destruct (Z.leb_spec 97 c), (Z.leb_spec c 102); cbn [andb] in H;
  destruct (Z.leb_spec 65 c), (Z.leb_spec c 70); cbn [andb] in H; try discriminate; lia.
Qed.
Lemma strtol_two a b x y : hexval a = Some x -> hexval b = Some y -> strtol16 [a; b] = 16 * x + y.
Proof.
  intros Ha Hb. destruct (not_special a x Ha) as (S1 & S2 & S3). unfold strtol16. cbn [skip_space]. rewrite S1, S2, S3. cbn [skip_0x parse_hex]. rewrite Ha, Hb. lia.
Qed.
Lemma hexval_range c v : hexval c = Some v -> 0 <= v < 16.
Proof.
  unfold hexval. intros H.
  destruct (Z.leb_spec 48 c), (Z.leb_spec c 57); cbn [andb] in H;
  destruct (Z.leb_spec 97 c), (Z.leb_spec c 102); cbn [andb] in H;
  destruct (Z.leb_spec 65 c), (Z.leb_spec c 70); cbn [andb] in H; try discriminate; injection H as <-; lia.
Qed.

(** to_byte_array on any string: never out of bounds, one value per pair, last odd character ignored *)
Lemma to_byte_array_ok s out : (length s / 2 <= length out)%nat ->
  exists r, to_byte_array s out = Ok r /\ length r = length out /\
    forall i, (i < length out)%nat -> nth i r 0 = if (i <? length s / 2)%nat then u8 (strtol16 (firstn 2 (skipn (i * 2) s))) else nth i out 0.
Proof.
  intros L. unfold to_byte_array.
  destruct (forn_inv (fun k r => length r = length out /\ forall i, (i < length out)%nat -> nth i r 0 = if (i <? k)%nat then u8 (strtol16 (firstn 2 (skipn (i * 2) s))) else nth i out 0)
    (length s / 2) 0 (fun i bytes => wr bytes i (u8 (strtol16 (firstn 2 (skipn (i * 2) s))))) out) as (r & E & P1 & P2).
  - split; [reflexivity|]. intros i Hi. reflexivity.
  - intros j r Hj [Lr Hr]. rewrite wr_Ok by lia. eexists. split; [reflexivity|]. rewrite upd_length. split; [exact Lr|]. intros i Hi. rewrite nth_upd by lia.
    destruct (Nat.eqb_spec i j) as [->|Hn]. { destruct (Nat.ltb_spec j (S j)); [reflexivity|lia]. }
    rewrite Hr by exact Hi. destruct (Nat.ltb_spec i j), (Nat.ltb_spec i (S j)); try lia; reflexivity.
  - exists r. auto.
Qed.

Lemma to_hex_pair l i : bytes l -> (i < length l)%nat -> firstn 2 (skipn (i * 2) (to_hex l)) = [hexchar (nth i l 0 / 16); hexchar (nth i l 0 mod 16)].
Proof.
  revert i. induction l as [|b l IH]; intros i H Hi; [cbn in Hi; lia|]. inversion H; subst. rewrite to_hex_cons by assumption.
  destruct i as [|i]; [reflexivity|]. cbn [Nat.mul Nat.add skipn nth]. apply IH; [assumption|cbn in Hi; lia].
Qed.
Lemma hex_round l out : bytes l -> length out = length l -> to_byte_array (to_hex l) out = Ok l.
Proof.
  intros Hl Lo. pose proof (to_hex_length l Hl) as LH.
  assert (L2 : (length (to_hex l) / 2 = length l)%nat) by (rewrite LH, Nat.mul_comm; apply Nat.div_mul; lia).
  destruct (to_byte_array_ok (to_hex l) out) as (r & E & Lr & Hr); [lia|]. rewrite E. f_equal. apply (list_ext 0); [lia|]. intros i Hi. rewrite Hr by lia. rewrite L2.
  destruct (Nat.ltb_spec i (length l)) as [H|H]; [|lia]. rewrite to_hex_pair by assumption.
  destruct (nibbles (nth i l 0)) as (N1 & N2 & N3). { apply (proj1 (Forall_nth byte l) Hl). exact H. }
  rewrite (strtol_two _ _ _ _ (hexval_char _ N1) (hexval_char _ N2)), <- N3. unfold u8. apply Z.mod_small. lia.
Qed.
(** the other direction: strings of lower-case hex digits *)
Definition lower_hex (c : Z) : Prop := 48 <= c <= 57 \/ 97 <= c <= 102.
Lemma lower_hexval c : lower_hex c -> exists v, hexval c = Some v /\ hexchar v = c.
Proof.
  unfold lower_hex, hexval, hexchar. intros H. destruct (Z.leb_spec 48 c), (Z.leb_spec c 57); cbn [andb]; try (exists (c - 48); split; [reflexivity|destruct (Z.ltb_spec (c - 48) 10); lia]);
  destruct (Z.leb_spec 97 c), (Z.leb_spec c 102); cbn [andb]; try (exists (c - 87); split; [reflexivity|destruct (Z.ltb_spec (c - 87) 10); lia]); lia.
Qed.
Lemma hex_round' n : forall s out, length s = (2 * n)%nat -> Forall lower_hex s -> length out = n -> exists r, to_byte_array s out = Ok r /\ bytes r /\ to_hex r = s.
Proof.
  intros s out Ls Hs Lo.
  assert (exists r, bytes r /\ to_hex r = s /\ length r = n) as (r & Br & Er & Lr).
  { clear out Lo. revert s Ls Hs. induction n as [|n IH]; intros s Ls Hs.
    - destruct s; [|cbn in Ls; lia]. exists []. repeat split. constructor.
    - destruct s as [|a [|b s]]; cbn [length] in Ls; try lia. inversion Hs as [|? ? Ha Hs1]; subst. inversion Hs1 as [|? ? Hb Hs2]; subst.
      destruct (IH s ltac:(lia) Hs2) as (r & Br & Er & Lr). destruct (lower_hexval a Ha) as (x & Hx & Cx). destruct (lower_hexval b Hb) as (y & Hy & Cy).
      pose proof (hexval_range _ _ Hx). pose proof (hexval_range _ _ Hy). exists (16 * x + y :: r).
      assert (byte (16 * x + y)) by (unfold byte; lia). split; [constructor; assumption|]. split; [|cbn; lia]. rewrite to_hex_cons by assumption.
      replace ((16 * x + y) / 16) with x by (apply (Z.div_unique _ _ _ y); lia). replace ((16 * x + y) mod 16) with y by (apply (Z.mod_unique _ _ x); lia). congruence. }
  exists r. split; [|auto]. rewrite <- Er. apply hex_round; [exact Br|congruence].
Qed.
Lemma to_hex_chars l : bytes l -> Forall lower_hex (to_hex l).
Proof.
  induction l as [|b l IH]; intros H; [constructor|]. inversion H; subst. rewrite to_hex_cons by assumption. destruct (nibbles b) as (N1 & N2 & _); [assumption|].
  constructor; [apply hexchar_range; exact N1|]. constructor; [apply hexchar_range; exact N2|]. apply IH. assumption.
Qed.
Lemma to_hex_digit l i : bytes l -> (i < length l)%nat ->
  nth (2 * i) (to_hex l) 0 = hexchar (nth i l 0 / 16) /\ nth (2 * i + 1) (to_hex l) 0 = hexchar (nth i l 0 mod 16).
Proof.
  revert i. induction l as [|b l IH]; intros i H Hi; [cbn in Hi; lia|]. inversion H; subst. rewrite to_hex_cons by assumption.
  destruct i as [|i]; [split; reflexivity|]. replace (2 * S i)%nat with (S (S (2 * i))) by lia. replace (S (S (2 * i)) + 1)%nat with (S (S (2 * i + 1))) by lia. cbn [nth]. apply IH; [assumption|cbn in Hi; lia].
Qed.

(** ** the generator *)
Definition upto (n : nat) : list Z := map Z.of_nat (seq 0 n).
Lemma upto_length n : length (upto n) = n.
Proof. unfold upto. rewrite map_length. apply seq_length. Qed.
Lemma upto_in n v : 0 <= v < Z.of_nat n -> In v (upto n).
Proof. intros H. unfold upto. apply in_map_iff. exists (Z.to_nat v). split; [apply Z2Nat.id; lia|]. apply in_seq. lia. Qed.
(** 2^32 as an opaque natural number *)
Lemma two32 : exists n, Z.of_nat n = 2 ^ 32.
Proof. exists (Z.to_nat (2 ^ 32)). apply Z2Nat.id. apply Z.pow_nonneg. lia. Qed.

Lemma few_values {A} (f : Z -> A) : exists L, Z.of_nat (length L) = 2 ^ 32 /\ forall v, 0 <= v < 2 ^ 32 -> In (f v) L.
Proof. destruct two32 as [n <-]. exists (map f (upto n)). rewrite map_length, upto_length. split; [reflexivity|]. intros v H. apply in_map, upto_in, H. Qed.

Lemma pigeon (n : nat) : forall f : nat -> Z, (forall i, (i <= n)%nat -> 0 <= f i < Z.of_nat n) -> exists i j, (i < j <= n)%nat /\ f i = f j.
Proof.
  induction n as [|n IH]; intros f H; [specialize (H 0%nat); lia|].
  (** send the value f (S n) out of the way by swapping it with n *)
  destruct (list_eq_dec Z.eq_dec (filter (fun x => x =? f (S n)) (map f (seq 0 (S n)))) []) as [E|E].
  - set (g := fun i => if f i =? Z.of_nat n then f (S n) else f i).
    assert (NE : forall i, (i <= n)%nat -> f i <> f (S n)).
    { intros i Hi Ef. assert (In (f i) (filter (fun x => x =? f (S n)) (map f (seq 0 (S n))))).
      { apply filter_In. split; [apply in_map, in_seq; lia|apply Z.eqb_eq; exact Ef]. } rewrite E in H0. destruct H0. }
    destruct (IH g) as (i & j & Hij & Eg).
    + intros i Hi. unfold g. pose proof (H i ltac:(lia)). pose proof (H (S n) ltac:(lia)). pose proof (NE i Hi). destruct (Z.eqb_spec (f i) (Z.of_nat n)); lia.
    + exists i, j. split; [lia|]. unfold g in Eg. pose proof (NE i ltac:(lia)). pose proof (NE j ltac:(lia)).
      destruct (Z.eqb_spec (f i) (Z.of_nat n)), (Z.eqb_spec (f j) (Z.of_nat n)); congruence.
  - destruct (filter (fun x => x =? f (S n)) (map f (seq 0 (S n)))) as [|x l] eqn:El; [congruence|].
    assert (In x (filter (fun x => x =? f (S n)) (map f (seq 0 (S n))))) as K by (rewrite El; left; reflexivity).
    apply filter_In in K. destruct K as [K1 K2]. apply in_map_iff in K1. destruct K1 as (i & Ei & Hi). apply in_seq in Hi. apply Z.eqb_eq in K2.
    exists i, (S n). split; [lia|congruence].
Qed.

Lemma prng_repeats draw xof (rds : nat -> Z) : (forall i, 0 <= rds i < 2 ^ 32) ->
  exists i j, (i < j)%nat /\ Z.of_nat j <= 2 ^ 32 /\ prng_init draw xof (rds i) = prng_init draw xof (rds j).
Proof.
  destruct two32 as [n <-]. intros H. destruct (pigeon n rds) as (i & j & Hij & E); [intros i _; apply H|].
  exists i, j. split; [lia|]. split; [lia|congruence].
Qed.

(** a 32-byte seed that no run uses *)
Definition seed_of (k : Z) : list Z := map (fun i => Z.shiftr k (8 * Z.of_nat i) mod 256) (seq 0 32).
Lemma seed_of_inj a b : 0 <= a < 2 ^ 40 -> 0 <= b < 2 ^ 40 -> seed_of a = seed_of b -> a = b.
Proof.
  intros Ha Hb E. assert (K : forall i, (i < 5)%nat -> Z.shiftr a (8 * Z.of_nat i) mod 256 = Z.shiftr b (8 * Z.of_nat i) mod 256).
  { intros i Hi. apply (f_equal (fun l => nth i l 0)) in E. unfold seed_of in E. rewrite !(nth_indep _ 0 (Z.shiftr a (8 * Z.of_nat 0) mod 256)) in E by (rewrite map_length, seq_length; lia).
    rewrite (map_nth (fun i => Z.shiftr a (8 * Z.of_nat i) mod 256)) in E. rewrite (nth_indep _ _ ((fun i => Z.shiftr b (8 * Z.of_nat i) mod 256) 0%nat)) in E by (rewrite map_length, seq_length; lia).
    rewrite (map_nth (fun i => Z.shiftr b (8 * Z.of_nat i) mod 256)) in E. rewrite seq_nth in E by lia. exact E. }
  pose proof (K 0%nat ltac:(lia)) as K0. pose proof (K 1%nat ltac:(lia)) as K1. pose proof (K 2%nat ltac:(lia)) as K2. pose proof (K 3%nat ltac:(lia)) as K3. pose proof (K 4%nat ltac:(lia)) as K4. clear K E.
  rewrite !Z.shiftr_div_pow2 in * by lia. cbn [Z.of_nat Pos.of_succ_nat Pos.succ] in *.
  change (2 ^ (8 * 0)) with 1 in *. change (2 ^ (8 * 1)) with 256 in *. change (2 ^ (8 * 2)) with 65536 in *. change (2 ^ (8 * 3)) with 16777216 in *. change (2 ^ (8 * 4)) with 4294967296 in *. change (2 ^ 40) with 1099511627776 in *.
  Z.div_mod_to_equations. lia.
Qed.
Lemma seed_of_bytes k : length (seed_of k) = 32%nat /\ bytes (seed_of k).
Proof. split; [unfold seed_of; rewrite map_length; apply seq_length|]. unfold seed_of. apply Forall_forall. intros x Hx. apply in_map_iff in Hx. destruct Hx as (i & <- & _). apply Z.mod_pos_bound. lia. Qed.

Lemma NoDup_map_inj {A B} (f : A -> B) l : (forall x y, In x l -> In y l -> f x = f y -> x = y) -> NoDup l -> NoDup (map f l).
Proof.
  induction l as [|a l IH]; intros H ND; [constructor|]. inversion ND; subst. cbn [map]. constructor.
  - intros K. apply in_map_iff in K. destruct K as (y & Ey & Hy). assert (y = a) by (apply H; [right; exact Hy|left; reflexivity|exact Ey]). subst y. contradiction.
  - apply IH; [|assumption]. intros x y Hx Hy. apply H; right; assumption.
Qed.
Lemma seed_shape draw xof rd : exists s, length s = 32%nat /\ bytes s /\ (forall i, (i < 32)%nat -> nth i s 0 = draw rd i mod 256) /\
  prng_seed draw rd = s /\ prng_init draw xof rd = xof s.
Proof.
  exists (prng_seed draw rd). unfold prng_init, prng_seed. rewrite map_length, seq_length. split; [reflexivity|]. split.
  - unfold bytes. rewrite Forall_map, Forall_forall. intros i _. unfold byte, u8. apply Z.mod_pos_bound. lia.
  - split; [|split; reflexivity]. intros i Hi. rewrite (nth_indep _ 0 (u8 (draw rd 0%nat))) by (rewrite map_length, seq_length; exact Hi).
    rewrite (map_nth (fun i => u8 (draw rd i))), seq_nth by exact Hi. reflexivity.
Qed.
Lemma seed_missed draw : exists s, length s = 32%nat /\ bytes s /\ forall rd, 0 <= rd < 2 ^ 32 -> prng_seed draw rd <> s.
Proof.
  destruct two32 as [n Hn]. rewrite <- Hn.
  set (cand := map (fun i => seed_of (Z.of_nat i)) (seq 0 (S n))). set (got := map (prng_seed draw) (upto n)).
  assert (ND : NoDup cand).
  { unfold cand. apply NoDup_map_inj; [|apply seq_NoDup]. intros x y Hx Hy E. apply in_seq in Hx. apply in_seq in Hy.
    change (2 ^ 32) with 4294967296 in Hn. apply seed_of_inj in E; [lia| |]; change (2 ^ 40) with 1099511627776; lia. }
  destruct (Forall_Exists_dec (fun s => In s got) (fun s => in_dec (list_eq_dec Z.eq_dec) s got) cand) as [A|A].
  - exfalso. assert (I : incl cand got) by (intros s Hs; exact (proj1 (Forall_forall _ _) A s Hs)).
    pose proof (NoDup_incl_length ND I) as L. unfold cand, got in L. rewrite !map_length, seq_length, upto_length in L. lia.
  - apply Exists_exists in A. destruct A as (s & Hs & Hno). exists s. unfold cand in Hs. apply in_map_iff in Hs. destruct Hs as (k & <- & _). destruct (seed_of_bytes (Z.of_nat k)) as [L1 L2].
    split; [exact L1|]. split; [exact L2|]. intros rd Hrd E. apply Hno. rewrite <- E. apply in_map, upto_in, Hrd.
Qed.

Lemma few_salts draw xof : exists L, Z.of_nat (length L) = 2 ^ 32 /\
  forall F (zt : list (D F * D F)) fuel sfuel lg skey msg sig sig' rd, falcon_lg lg -> (sig_bytes lg <= length sig)%nat -> 0 <= rd < 2 ^ 32 ->
    sign_run draw xof F zt fuel sfuel lg skey msg sig rd = Ok (true, sig') -> In (firstn 40 (skipn 1 sig')) L.
Proof.
  destruct (few_values (fun rd => map (prng_init draw xof rd) (seq 0 40))) as (L & L1 & L2). exists L. split; [exact L1|].
  intros F zt fuel sfuel lg skey msg sig sig' rd Hlg Ls Hrd H. unfold sign_run, sign in H. apply bind_Ok in H. destruct H as [[d [[f g] F_]] [_ H]].
  destruct (negb d); [discriminate|]. apply bind_Ok in H. destruct H as [G_ [_ H]]. apply bind_Ok in H. destruct H as [B [_ H]]. apply bind_Ok in H. destruct H as [T [_ H]].
  apply bind_Ok in H. destruct H as [[s p] [H E]]. injection E as ->.
  destruct (sign_layout _ _ _ _ _ _ _ _ _ _ _ _ _ _ Hlg Ls H) as (c & t0 & t1 & s2 & body & _ & _ & _ & _ & _ & _ & _ & _ & ES).
  rewrite ES. cbn [skipn app]. rewrite firstn_app, map_length, seq_length, Nat.sub_diag, firstn_O, app_nil_r.
  rewrite firstn_all2 by (rewrite map_length, seq_length; lia). exact (L2 rd Hrd).
Qed.

Lemma hex_text l : bytes l -> length (to_hex l) = (2 * length l)%nat /\
  forall i, (i < length l)%nat -> let digit d := nth (Z.to_nat d) [48; 49; 50; 51; 52; 53; 54; 55; 56; 57; 97; 98; 99; 100; 101; 102] 0 in
    nth (2 * i) (to_hex l) 0 = digit (nth i l 0 / 16) /\ nth (2 * i + 1) (to_hex l) 0 = digit (nth i l 0 mod 16).
Proof.
  intros H. split; [apply to_hex_length; exact H|]. intros i Hi digit. destruct (to_hex_digit l i H Hi) as [-> ->].
  destruct (nibbles (nth i l 0)) as (N1 & N2 & _). { apply (proj1 (Forall_nth byte l) H). exact Hi. }
  unfold digit. split; apply hexchar_code; assumption.
Qed.
Lemma hex_malformed : exists s s', s <> s' /\ Forall (fun c => ~ (48 <= c <= 57 \/ 97 <= c <= 102 \/ 65 <= c <= 70)) s /\
  forall out, length out = 1%nat -> to_byte_array s out = Ok [0] /\ to_byte_array s' out = Ok [0].
Proof.
  exists [122; 122], [48; 48]. split; [discriminate|]. split; [repeat constructor; lia|]. intros [|o [|o' out]] L; try discriminate. split; reflexivity.
Qed.

(** two digits in any case, anywhere in a string *)
Lemma hexval_any d c : 0 <= d < 16 -> c = nth (Z.to_nat d) [48; 49; 50; 51; 52; 53; 54; 55; 56; 57; 97; 98; 99; 100; 101; 102] 0 \/ c = nth (Z.to_nat d) [48; 49; 50; 51; 52; 53; 54; 55; 56; 57; 65; 66; 67; 68; 69; 70] 0 -> hexval c = Some d.
Proof. intros H C. assert (d = 0 \/ d = 1 \/ d = 2 \/ d = 3 \/ d = 4 \/ d = 5 \/ d = 6 \/ d = 7 \/ d = 8 \/ d = 9 \/ d = 10 \/ d = 11 \/ d = 12 \/ d = 13 \/ d = 14 \/ d = 15) as K by lia.
  repeat (destruct K as [->|K]; [destruct C as [->| ->]; reflexivity|]). subst d. destruct C as [->| ->]; reflexivity. Qed.
Lemma two_at i : forall s : list Z, (2 * i + 1 < length s)%nat -> firstn 2 (skipn (i * 2) s) = [nth (2 * i) s 0; nth (2 * i + 1) s 0].
Proof.
  induction i as [|i IH]; intros s H.
  - destruct s as [|a [|b s]]; cbn [length] in H; try lia. reflexivity.
  - destruct s as [|a [|b s]]; cbn [length] in H; try lia. replace (2 * S i)%nat with (S (S (2 * i))) by lia. replace (S (S (2 * i)) + 1)%nat with (S (S (2 * i + 1))) by lia. cbn [Nat.mul Nat.add skipn nth]. apply IH. lia.
Qed.
Lemma hex_value : forall s out i x y, (length s / 2 <= length out)%nat -> (2 * i + 1 < length s)%nat -> 0 <= x < 16 -> 0 <= y < 16 ->
  let lower d := nth (Z.to_nat d) [48; 49; 50; 51; 52; 53; 54; 55; 56; 57; 97; 98; 99; 100; 101; 102] 0 in
  let upper d := nth (Z.to_nat d) [48; 49; 50; 51; 52; 53; 54; 55; 56; 57; 65; 66; 67; 68; 69; 70] 0 in
  nth (2 * i) s 0 = lower x \/ nth (2 * i) s 0 = upper x -> nth (2 * i + 1) s 0 = lower y \/ nth (2 * i + 1) s 0 = upper y ->
  exists r, to_byte_array s out = Ok r /\ nth i r 0 = 16 * x + y.
Proof.
  intros s out i x y L Hi Hx Hy lower upper Ha Hb. destruct (to_byte_array_ok s out L) as (r & E & Lr & Hr). exists r. split; [exact E|].
  assert (Hd : (i < length s / 2)%nat) by (apply Nat.div_le_lower_bound; lia). rewrite Hr by lia. rewrite (proj2 (Nat.ltb_lt _ _) Hd), (two_at i s Hi), (strtol_two _ _ x y (hexval_any x _ Hx Ha) (hexval_any y _ Hy Hb)). apply Z.mod_small. lia.
Qed.
