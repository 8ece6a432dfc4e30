(** P_samp.v -- u72, base sampler, 64-bit product, Bernoulli loop. *)
From Verif Require Import Base Spec M_float M_samp P_ff P_xform P_codec P_keys P_sig P_comp.
Open Scope Z_scope.

(** ** u72 *)
Definition ok72 (a : u72) : Prop := 0 <= hi a < 256 /\ 0 <= lo a < 2 ^ 64.
Definition val (a : u72) : Z := val72 (hi a) (lo a).
Lemma land255 x : Z.land x 255 = x mod 256.
Proof. change 255 with (Z.ones 8). apply Z.land_ones. lia. Qed.
Lemma val_inj a b : ok72 a -> ok72 b -> val a = val b -> a = b.
Proof. destruct a as [h l], b as [h' l']. unfold ok72, val, val72. cbn [hi lo]. intros. f_equal; lia. Qed.

Lemma add72_ok a b : ok72 a -> ok72 b -> ok72 (add72 a b) /\ val (add72 a b) = (val a + val b) mod 2 ^ 72.
Proof.
  destruct a as [h l], b as [h' l']. unfold ok72, val, val72, add72, u64, uint64_max. cbn [hi lo]. intros [H1 H2] [H3 H4].
  rewrite land255. rewrite Z.gtb_ltb. change (2 ^ 64) with 18446744073709551616 in *. change (2 ^ 72) with 4722366482869645213696.
  destruct (Z.ltb_spec (18446744073709551615 - l') l) as [L|L]; cbn [b2z]; (split; [lia|lia]).
Qed.
Lemma sub72_ok a b : ok72 a -> ok72 b -> ok72 (sub72 a b) /\ val (sub72 a b) = (val a - val b) mod 2 ^ 72.
Proof.
  destruct a as [h l], b as [h' l']. unfold ok72, val, val72, sub72, u64. cbn [hi lo]. intros [H1 H2] [H3 H4].
  rewrite land255. change (2 ^ 64) with 18446744073709551616 in *. change (2 ^ 72) with 4722366482869645213696.
  destruct (Z.ltb_spec l l') as [L|L]; cbn [b2z]; (split; [lia|lia]).
Qed.
Lemma neg72_ok a : ok72 a -> ok72 (neg72 a) /\ val (neg72 a) = (- val a) mod 2 ^ 72.
Proof. intros H. destruct (sub72_ok zero72 a) as [A B]; [unfold ok72; cbn; lia|exact H|]. split; [exact A|]. unfold neg72. rewrite B. reflexivity. Qed.
Lemma gt72_ok a b : ok72 a -> ok72 b -> gt72 a b = (val b <? val a).
Proof.
  destruct a as [h l], b as [h' l']. unfold ok72, val, val72, gt72. cbn [hi lo]. intros [H1 H2] [H3 H4]. rewrite !Z.gtb_ltb.
  change (2 ^ 64) with 18446744073709551616 in *.
  destruct (Z.ltb_spec h' h), (Z.eqb_spec h h'), (Z.ltb_spec h h'), (Z.ltb_spec l' l), (Z.ltb_spec (h' * 18446744073709551616 + l') (h * 18446744073709551616 + l)); cbn; try reflexivity; lia.
Qed.
Lemma lt72_ok a b : ok72 a -> ok72 b -> lt72 a b = (val a <? val b).
Proof. intros. unfold lt72. apply gt72_ok; assumption. Qed.

Lemma lor_shift l x k : 0 <= k -> 0 <= l < 2 ^ k -> 0 <= x -> Z.lor l (Z.shiftl x k) = l + x * 2 ^ k.
Proof. intros Hk Hl Hx. rewrite Z.lor_comm, lor_add by lia. lia. Qed.

Ltac LS x k := rewrite (lor_shift _ x k) by lia.

Definition nine (b0 b1 b2 b3 b4 b5 b6 b7 b8 : Z) : list Z := [b0; b1; b2; b3; b4; b5; b6; b7; b8].
Lemma nine_of (b : list Z) : length b = 9%nat -> exists b0 b1 b2 b3 b4 b5 b6 b7 b8, b = nine b0 b1 b2 b3 b4 b5 b6 b7 b8.
Proof.
  intros L. do 9 (destruct b as [|? b]; [discriminate|]). destruct b; [|discriminate]. do 9 eexists. reflexivity.
Qed.

Lemma u64_small x : 0 <= x < 2 ^ 64 -> u64 x = x.
Proof. intros H. apply Z.mod_small. exact H. Qed.

Lemma shl_byte x i : byte x -> (i < 8)%nat -> u64 (Z.shiftl x (8 * Z.of_nat i)) = Z.shiftl x (8 * Z.of_nat i).
Proof.
  intros Hx Hi. apply u64_small. unfold byte in Hx. rewrite Z.shiftl_mul_pow2 by lia.
  do 8 (destruct i as [|i]; [cbn; lia|]). lia.
Qed.

Lemma from_le_ok b : length b = 9%nat -> bytes b -> exists a, from_le b = Ok a /\ ok72 a /\ val a = le_value 256 b.
Proof.
  intros L B. destruct (nine_of b L) as (b0 & b1 & b2 & b3 & b4 & b5 & b6 & b7 & b8 & ->).
  unfold nine, bytes in B. repeat (match goal with H : Forall _ (_ :: _) |- _ => inversion_clear H end). unfold byte in *.
  unfold from_le, nine. cbn [forn rd nth_error bind Nat.add]. rewrite Z.lor_0_l.
  rewrite !shl_byte by (unfold byte; lia || lia).
  change (8 * Z.of_nat 0) with 0. change (8 * Z.of_nat 1) with 8. change (8 * Z.of_nat 2) with 16. change (8 * Z.of_nat 3) with 24.
  change (8 * Z.of_nat 4) with 32. change (8 * Z.of_nat 5) with 40. change (8 * Z.of_nat 6) with 48. change (8 * Z.of_nat 7) with 56.
  rewrite ?Z.shiftl_0_r. LS b1 8. LS b2 16. LS b3 24. LS b4 32. LS b5 40. LS b6 48. LS b7 56. eexists. split; [reflexivity|].
  unfold ok72, val, val72, le_value. cbn [hi lo fold_right]. lia.
Qed.
Lemma from_be_ok b : length b = 9%nat -> bytes b -> exists a, from_be b = Ok a /\ ok72 a /\ val a = be_value 256 b.
Proof.
  intros L B. destruct (nine_of b L) as (b0 & b1 & b2 & b3 & b4 & b5 & b6 & b7 & b8 & ->).
  unfold nine, bytes in B. repeat (match goal with H : Forall _ (_ :: _) |- _ => inversion_clear H end). unfold byte in *.
  unfold from_be, nine. cbn [forn rd nth_error bind Nat.add Nat.sub]. rewrite Z.lor_0_l.
  rewrite !shl_byte by (unfold byte; lia || lia).
  change (8 * Z.of_nat 0) with 0. change (8 * Z.of_nat 1) with 8. change (8 * Z.of_nat 2) with 16. change (8 * Z.of_nat 3) with 24.
  change (8 * Z.of_nat 4) with 32. change (8 * Z.of_nat 5) with 40. change (8 * Z.of_nat 6) with 48. change (8 * Z.of_nat 7) with 56.
  rewrite ?Z.shiftl_0_r.
  set (t := Z.lor _ _).
  assert (E : t = b8 + b7 * 2 ^ 8 + b6 * 2 ^ 16 + b5 * 2 ^ 24 + b4 * 2 ^ 32 + b3 * 2 ^ 40 + b2 * 2 ^ 48 + b1 * 2 ^ 56).
  { unfold t. rewrite <- !Z.lor_assoc.
    rewrite (Z.lor_comm (Z.shiftl b2 48)). rewrite <- !Z.lor_assoc.
    transitivity (Z.lor (Z.lor (Z.lor (Z.lor (Z.lor (Z.lor (Z.lor b8 (Z.shiftl b7 8)) (Z.shiftl b6 16)) (Z.shiftl b5 24)) (Z.shiftl b4 32)) (Z.shiftl b3 40)) (Z.shiftl b2 48)) (Z.shiftl b1 56)).
    - apply Z.bits_inj. intros n. rewrite !Z.lor_spec. destruct (Z.testbit b8 n), (Z.testbit (Z.shiftl b7 8) n), (Z.testbit (Z.shiftl b6 16) n), (Z.testbit (Z.shiftl b5 24) n), (Z.testbit (Z.shiftl b4 32) n), (Z.testbit (Z.shiftl b3 40) n), (Z.testbit (Z.shiftl b2 48) n), (Z.testbit (Z.shiftl b1 56) n); reflexivity.
    - LS b7 8. LS b6 16. LS b5 24. LS b4 32. LS b3 40. LS b2 48. LS b1 56. reflexivity. }
  rewrite E. eexists. split; [reflexivity|].
  unfold ok72, val, val72, be_value. cbn [hi lo fold_left]. change (2 ^ 64) with 18446744073709551616. lia.
Qed.

Lemma u8_shiftr x k : 0 <= k -> u8 (Z.shiftr x k) = x / 2 ^ k mod 256.
Proof. intros H. unfold u8. rewrite Z.shiftr_div_pow2 by exact H. reflexivity. Qed.

Lemma to_le_ok a : ok72 a -> exists b, to_le a = Ok b /\ length b = 9%nat /\ bytes b /\ le_value 256 b = val a.
Proof.
  destruct a as [h l]. unfold ok72. cbn [hi lo]. intros [H1 H2]. unfold to_le. cbn [forn wr upd repeat length Nat.ltb Nat.leb bind hi lo].
  rewrite !u8_shiftr by lia.
  change (8 * Z.of_nat 0) with 0. change (8 * Z.of_nat 1) with 8. change (8 * Z.of_nat 2) with 16. change (8 * Z.of_nat 3) with 24.
  change (8 * Z.of_nat 4) with 32. change (8 * Z.of_nat 5) with 40. change (8 * Z.of_nat 6) with 48. change (8 * Z.of_nat 7) with 56.
  eexists. split; [reflexivity|]. split; [reflexivity|]. split.
  - repeat (apply Forall_cons; [unfold byte, u8; lia|]). apply Forall_nil.
  - unfold le_value, val, val72, u8. cbn [fold_right hi lo]. change (2 ^ 64) with 18446744073709551616 in *. lia.
Qed.
Lemma to_be_ok a : ok72 a -> exists b, to_be a = Ok b /\ length b = 9%nat /\ bytes b /\ be_value 256 b = val a.
Proof.
  destruct a as [h l]. unfold ok72. cbn [hi lo]. intros [H1 H2]. unfold to_be. cbn [forn wr upd repeat length Nat.ltb Nat.leb bind hi lo Nat.add Nat.sub].
  rewrite !u8_shiftr by lia.
  change (8 * Z.of_nat 0) with 0. change (8 * Z.of_nat 1) with 8. change (8 * Z.of_nat 2) with 16. change (8 * Z.of_nat 3) with 24.
  change (8 * Z.of_nat 4) with 32. change (8 * Z.of_nat 5) with 40. change (8 * Z.of_nat 6) with 48. change (8 * Z.of_nat 7) with 56.
  eexists. split; [reflexivity|]. split; [reflexivity|]. split.
  - repeat (apply Forall_cons; [unfold byte, u8; lia|]). apply Forall_nil.
  - unfold be_value, val, val72, u8. cbn [fold_left hi lo]. change (2 ^ 64) with 18446744073709551616 in *. lia.
Qed.

(** ** positional values *)
Lemma le_value_cons B a l : le_value B (a :: l) = a + B * le_value B l.
Proof. reflexivity. Qed.
Lemma be_value_snoc B l a : be_value B (l ++ [a]) = be_value B l * B + a.
Proof. unfold be_value. rewrite fold_left_app. reflexivity. Qed.
Lemma be_value_cons B a l : be_value B (a :: l) = a * B ^ Z.of_nat (length l) + be_value B l.
Proof.
  induction l as [|x l IH] using rev_ind; [cbn; lia|].
  rewrite app_comm_cons, !be_value_snoc, IH, app_length. cbn [length]. rewrite Nat.add_1_r, Nat2Z.inj_succ, Z.pow_succ_r by lia. ring.
Qed.
Lemma le_value_rev B l : le_value B (rev l) = be_value B l.
Proof.
  induction l as [|x l IH] using rev_ind; [reflexivity|]. rewrite rev_unit, le_value_cons, be_value_snoc, IH. ring.
Qed.
Lemma le_value_inj (a b : list Z) : length a = length b -> bytes a -> bytes b -> le_value 256 a = le_value 256 b -> a = b.
Proof.
  revert b. induction a as [|x a IH]; intros [|y b] L Ha Hb E; try discriminate; [reflexivity|].
  inversion_clear Ha. inversion_clear Hb. rewrite !le_value_cons in E. unfold byte in *.
  assert (x = y) by lia. subst y. f_equal. apply IH; [injection L; auto|assumption|assumption|lia].
Qed.
Lemma be_value_inj (a b : list Z) : length a = length b -> bytes a -> bytes b -> be_value 256 a = be_value 256 b -> a = b.
Proof.
  intros L Ha Hb E. rewrite <- !le_value_rev in E. apply le_value_inj in E.
  - rewrite <- (rev_involutive a), E. apply rev_involutive.
  - rewrite !rev_length. exact L.
  - apply Forall_rev. exact Ha.
  - apply Forall_rev. exact Hb.
Qed.
Lemma le_value_range (a : list Z) : bytes a -> 0 <= le_value 256 a < 256 ^ Z.of_nat (length a).
Proof.
  induction a as [|x a IH]; intros H; [cbn; lia|]. inversion_clear H. specialize (IH H1). rewrite le_value_cons. cbn [length].
  rewrite Nat2Z.inj_succ, Z.pow_succ_r by lia. unfold byte in *. lia.
Qed.
Lemma be_value_range (a : list Z) : bytes a -> 0 <= be_value 256 a < 256 ^ Z.of_nat (length a).
Proof. intros H. rewrite <- le_value_rev. rewrite <- (rev_length a). apply le_value_range. apply Forall_rev. exact H. Qed.

Lemma to_from_le b : length b = 9%nat -> bytes b -> exists a, from_le b = Ok a /\ to_le a = Ok b.
Proof.
  intros L B. destruct (from_le_ok b L B) as (a & Ha & Hok & Hv). exists a. split; [exact Ha|].
  destruct (to_le_ok a Hok) as (b' & Hb & L' & B' & V). rewrite Hb. f_equal. apply le_value_inj; [congruence|assumption|assumption|congruence].
Qed.
Lemma to_from_be b : length b = 9%nat -> bytes b -> exists a, from_be b = Ok a /\ to_be a = Ok b.
Proof.
  intros L B. destruct (from_be_ok b L B) as (a & Ha & Hok & Hv). exists a. split; [exact Ha|].
  destruct (to_be_ok a Hok) as (b' & Hb & L' & B' & V). rewrite Hb. f_equal. apply be_value_inj; [congruence|assumption|assumption|congruence].
Qed.
Lemma from_to_le a : ok72 a -> exists b, to_le a = Ok b /\ from_le b = Ok a.
Proof.
  intros H. destruct (to_le_ok a H) as (b & Hb & L & B & V). exists b. split; [exact Hb|].
  destruct (from_le_ok b L B) as (a' & Ha & Hok & Hv). rewrite Ha. f_equal. apply val_inj; [assumption|assumption|congruence].
Qed.
Lemma from_to_be a : ok72 a -> exists b, to_be a = Ok b /\ from_be b = Ok a.
Proof.
  intros H. destruct (to_be_ok a H) as (b & Hb & L & B & V). exists b. split; [exact Hb|].
  destruct (from_be_ok b L B) as (a' & Ha & Hok & Hv). rewrite Ha. f_equal. apply val_inj; [assumption|assumption|congruence].
Qed.

(** ** base sampler *)
Lemma RCDT_val : map val RCDT = map tail_mass (seq 0 19) /\ Forall ok72 RCDT /\ length RCDT = 19%nat.
Proof. split; [vm_compute; reflexivity|]. split; [|reflexivity]. repeat (apply Forall_cons; [split; split; vm_compute; congruence|]). apply Forall_nil. Qed.

Lemma forn_count n (p : nat -> bool) i z : 0 <= z -> z + Z.of_nat n < 4294967296 ->
  forn n i (fun j s => Ok (u32 (s + b2z (p j)))) z = Ok (z + Z.of_nat (length (filter p (seq i n)))).
Proof.
  revert i z. induction n as [|n IH]; intros i z H0 H1; cbn [forn seq filter]; [cbn; f_equal; lia|]. cbn [bind].
  assert (u32 (z + b2z (p i)) = z + b2z (p i)) as -> by (unfold u32; apply Z.mod_small; destruct (p i); cbn [b2z]; lia).
  rewrite IH by (destruct (p i); cbn [b2z]; lia).
  destruct (p i); cbn [b2z length]; f_equal; lia.
Qed.

Lemma tail_dec i j : (i < j)%nat -> (j < 19)%nat -> tail_mass j < tail_mass i.
Proof.
  intros H1 H2. assert (S1 : forall k, (k < 18)%nat -> tail_mass (S k) < tail_mass k).
  { intros k Hk. apply Z.ltb_lt. revert k Hk. apply (alln_spec 18 (fun k => tail_mass (S k) <? tail_mass k)). vm_compute. reflexivity. }
  induction j as [|j IH]; [lia|]. destruct (Nat.eq_dec i j) as [->|N].
  - apply S1. lia.
  - transitivity (tail_mass j); [apply S1; lia|apply IH; lia].
Qed.

Lemma filter_prefix (p : nat -> bool) n m : (m <= n)%nat -> (forall i, (i < m)%nat -> p i = true) -> (forall i, (m <= i < n)%nat -> p i = false) ->
  length (filter p (seq 0 n)) = m.
Proof.
  intros H1 H2 H3. replace n with (m + (n - m))%nat by lia. rewrite seq_app, filter_app, app_length. cbn [Nat.add].
  assert (E1 : filter p (seq 0 m) = seq 0 m).
  { clear H1 H3. induction m as [|m IH]; [reflexivity|]. rewrite seq_S, filter_app, IH by (intros; apply H2; lia). cbn [filter Nat.add]. rewrite H2 by lia. reflexivity. }
  assert (E2 : filter p (seq m (n - m)) = []).
  { assert (G : forall k, (m + k <= n)%nat -> filter p (seq m k) = []).
    { induction k as [|k IH]; intros Hk; [reflexivity|]. rewrite seq_S, filter_app, IH by lia. cbn [filter]. rewrite H3 by lia. reflexivity. }
    apply G. lia. }
  rewrite E1, E2, seq_length. cbn. lia.
Qed.

Lemma base_count b : length b = 9%nat -> bytes b ->
  base_sampler b = Ok (Z.of_nat (length (filter (fun i => le_value 256 b <? tail_mass i) (seq 0 18)))).
Proof.
  intros L B. destruct (from_le_ok b L B) as (a & Ha & Hok & Hv). unfold base_sampler. rewrite Ha. cbn [bind].
  destruct RCDT_val as (RV & RO & RL).
  rewrite (forn_ext 18 0 _ (fun i z0 => Ok (u32 (z0 + b2z (le_value 256 b <? tail_mass i))))).
  - rewrite forn_count by lia. reflexivity.
  - intros i s Hi. rewrite (rd_Ok RCDT i zero72) by lia. cbn [bind].
    rewrite lt72_ok by (first [assumption|apply Forall_nth_lt; [assumption|lia]]). rewrite Hv.
    replace (val (nth i RCDT zero72)) with (tail_mass i); [reflexivity|]. symmetry. rewrite <- (map_nth val), RV.
    rewrite (nth_indep _ _ (tail_mass 0)) by (rewrite map_length, seq_length; lia). rewrite map_nth, seq_nth by lia. reflexivity.
Qed.

Lemma pdt_tail i : (i < 19)%nat -> 0 < nth i pdt 0 /\ tail_mass i + nth i pdt 0 = match i with O => 2 ^ 72 | S j => tail_mass j end.
Proof. intros H. do 19 (destruct i as [|i]; [split; [vm_compute; reflexivity|vm_compute; reflexivity]|]). lia. Qed.
Lemma tail_18 : tail_mass 18 = 0. Proof. reflexivity. Qed.

Lemma base_interval b i : length b = 9%nat -> bytes b -> (i < 19)%nat ->
  (base_sampler b = Ok (Z.of_nat i) <-> tail_mass i <= le_value 256 b < tail_mass i + nth i pdt 0).
Proof.
  intros L B Hi. rewrite base_count by assumption. pose proof (le_value_range b B) as R. rewrite L in R. change (256 ^ Z.of_nat 9) with (2 ^ 72) in R.
  set (v := le_value 256 b) in *. set (p := fun i => v <? tail_mass i).
  assert (Hsuff : forall j, (j < 19)%nat -> tail_mass j <= v < tail_mass j + nth j pdt 0 -> length (filter p (seq 0 18)) = j).
  { intros j Hj Hv. destruct (pdt_tail j Hj) as [_ E]. apply filter_prefix; [lia| |].
    - intros k Hk. unfold p. apply Z.ltb_lt. destruct j as [|j]; [lia|]. destruct (Nat.eq_dec k j) as [->|N]; [lia|].
      pose proof (tail_dec k j). lia.
    - intros k Hk. unfold p. apply Z.ltb_ge. destruct (Nat.eq_dec k j) as [->|N]; [lia|]. pose proof (tail_dec j k). lia. }
  split.
  - intros E. assert (E' : length (filter p (seq 0 18)) = i) by (apply Nat2Z.inj; congruence).
    assert (X : exists j, (j < 19)%nat /\ tail_mass j <= v < tail_mass j + nth j pdt 0).
    { clear - R. assert (G : forall n, (n < 19)%nat -> tail_mass n <= v -> exists j, (j < 19)%nat /\ tail_mass j <= v < tail_mass j + nth j pdt 0).
      { induction n as [|n IH]; intros Hn Hv; destruct (pdt_tail _ Hn) as [_ E].
        - exists 0%nat. lia.
        - destruct (Z.lt_ge_cases v (tail_mass n)) as [C|C]; [exists (S n); lia|apply IH; lia]. }
      apply (G 18%nat); [lia|rewrite tail_18; lia]. }
    destruct X as (j & Hj & Hv). rewrite (Hsuff j Hj Hv) in E'. subst j. exact Hv.
  - intros Hv. rewrite (Hsuff i Hi Hv). reflexivity.
Qed.

Lemma base_total b : length b = 9%nat -> bytes b -> exists i, (i < 19)%nat /\ base_sampler b = Ok (Z.of_nat i).
Proof.
  intros L B. rewrite base_count by assumption. eexists. split; [|reflexivity].
  set (p := fun _ => _). assert (length (filter p (seq 0 18)) <= length (seq 0 18))%nat.
  { generalize (seq 0 18). clear. intros l. induction l as [|x l IH]; cbn [filter length]; [lia|]. destruct (p x); cbn [length]; lia. }
  rewrite seq_length in H. lia.
Qed.

Definition le9 (v : Z) : list Z := match to_le (mk72 (v / 2 ^ 64) (v mod 2 ^ 64)) with Ok b => b | _ => [] end.
Lemma le9_ok v : 0 <= v < 2 ^ 72 -> length (le9 v) = 9%nat /\ bytes (le9 v) /\ le_value 256 (le9 v) = v.
Proof.
  intros H. change (2 ^ 72) with 4722366482869645213696 in H. unfold le9. change (2 ^ 64) with 18446744073709551616.
  destruct (to_le_ok (mk72 (v / 18446744073709551616) (v mod 18446744073709551616))) as (b & Hb & L & B & V).
  { unfold ok72. cbn [hi lo]. change (2 ^ 64) with 18446744073709551616. lia. }
  rewrite Hb. split; [exact L|]. split; [exact B|]. rewrite V. unfold val, val72. cbn [hi lo]. change (2 ^ 64) with 18446744073709551616. lia.
Qed.

Lemma base_exact i : (i < 19)%nat -> exists f : Z -> list Z,
  (forall k, 0 <= k < nth i pdt 0 -> length (f k) = 9%nat /\ bytes (f k) /\ base_sampler (f k) = Ok (Z.of_nat i)) /\
  (forall k k', 0 <= k < nth i pdt 0 -> 0 <= k' < nth i pdt 0 -> f k = f k' -> k = k') /\
  (forall b, length b = 9%nat -> bytes b -> base_sampler b = Ok (Z.of_nat i) -> exists k, 0 <= k < nth i pdt 0 /\ f k = b).
Proof.
  intros Hi. exists (fun k => le9 (tail_mass i + k)).
  assert (R : forall k, 0 <= k < nth i pdt 0 -> 0 <= tail_mass i + k < 2 ^ 72).
  { intros k Hk. destruct (pdt_tail i Hi) as [P E]. assert (0 <= tail_mass i).
    { destruct (Nat.eq_dec i 18) as [->|N]; [rewrite tail_18; lia|]. pose proof (tail_dec i 18). rewrite tail_18 in *. lia. }
    destruct i as [|j]; [lia|]. assert (tail_mass j <= tail_mass 0). { destruct j; [lia|]. pose proof (tail_dec 0 (S j)). lia. }
    assert (tail_mass 0 < 2 ^ 72) by (vm_compute; reflexivity). lia. }
  split; [|split].
  - intros k Hk. destruct (le9_ok _ (R k Hk)) as (L & B & V). split; [exact L|]. split; [exact B|]. apply base_interval; try assumption. rewrite V. lia.
  - intros k k' Hk Hk' E. destruct (le9_ok _ (R k Hk)) as (_ & _ & V). destruct (le9_ok _ (R k' Hk')) as (_ & _ & V').
    cbv beta in E. rewrite E in V. lia.
  - intros b L B E. apply base_interval in E; try assumption. exists (le_value 256 b - tail_mass i). split; [lia|].
    replace (tail_mass i + (le_value 256 b - tail_mass i)) with (le_value 256 b) by lia.
    pose proof (le_value_range b B) as RR. rewrite L in RR. destruct (le9_ok _ RR) as (L' & B' & V). apply le_value_inj; congruence.
Qed.

(** ** 64 x 64 product *)
Lemma split32 x : 0 <= x < 18446744073709551616 -> Z.shiftr x 32 = x / 4294967296 /\ Z.land x 4294967295 = x mod 4294967296.
Proof. intros H. split; [apply Z.shiftr_div_pow2; lia|]. change 4294967295 with (Z.ones 32). apply Z.land_ones. lia. Qed.

Lemma full_mul_ok a b : 0 <= a < 18446744073709551616 -> 0 <= b < 18446744073709551616 ->
  let '(h, l) := full_mul_u64 a b in 0 <= h < 18446744073709551616 /\ 0 <= l < 18446744073709551616 /\ h * 18446744073709551616 + l = a * b.
Proof.
  intros Ha Hb. unfold full_mul_u64. change 0xffffffff with 4294967295.
  destruct (split32 a Ha) as [-> ->]. destruct (split32 b Hb) as [-> ->].
  assert (A1 : 0 <= a / 4294967296 < 4294967296) by lia. assert (A0 : 0 <= a mod 4294967296 < 4294967296) by lia.
  assert (B1 : 0 <= b / 4294967296 < 4294967296) by lia. assert (B0 : 0 <= b mod 4294967296 < 4294967296) by lia.
  assert (Ea : a = a / 4294967296 * 4294967296 + a mod 4294967296) by lia. assert (Eb : b = b / 4294967296 * 4294967296 + b mod 4294967296) by lia.
  set (ah := a / 4294967296) in *. set (al := a mod 4294967296) in *. set (bh := b / 4294967296) in *. set (bl := b mod 4294967296) in *.
  assert (P : a * b = ah * bh * 18446744073709551616 + (ah * bl + al * bh) * 4294967296 + al * bl) by (rewrite Ea, Eb; ring).
  assert (M : forall x y, 0 <= x < 4294967296 -> 0 <= y < 4294967296 -> 0 <= x * y <= 18446744065119617025) by (intros; nia).
  pose proof (M ah bh A1 B1). pose proof (M ah bl A1 B0). pose proof (M al bh A0 B1). pose proof (M al bl A0 B0).
  rewrite P. clear M P Ea Eb. clearbody ah al bh bl.
  unfold u64. rewrite !(Z.mod_small (_ * _)) by lia.
  set (hh := ah * bh) in *. set (m0 := ah * bl) in *. set (m1 := al * bh) in *. set (ll := al * bl) in *. clearbody hh m0 m1 ll.
  destruct (split32 m0) as [-> ->]; [lia|]. destruct (split32 m1) as [-> ->]; [lia|]. rewrite (proj1 (split32 ll ltac:(lia))).
  assert (Ts : 0 <= (ll / 4294967296 + m0 mod 4294967296) mod 18446744073709551616 < 18446744073709551616) by lia.
  rewrite !Z.shiftl_mul_pow2 by lia. change (2 ^ 32) with 4294967296.
  rewrite (Z.mod_small (ll / 4294967296 + _)) by lia. rewrite (Z.mod_small (ll / 4294967296 + _ + _)) by lia.
  rewrite (proj1 (split32 (ll / 4294967296 + m0 mod 4294967296 + m1 mod 4294967296) ltac:(lia))).
  lia.
Qed.
Lemma full_mul_arm_ok a b : 0 <= a < 18446744073709551616 -> 0 <= b < 18446744073709551616 -> full_mul_u64_arm a b = full_mul_u64 a b.
Proof.
  intros Ha Hb. pose proof (full_mul_ok a b Ha Hb) as H. destruct (full_mul_u64 a b) as [h l]. destruct H as (H1 & H2 & H3).
  unfold full_mul_u64_arm, u64. rewrite Z.shiftr_div_pow2 by lia. change (2 ^ 128) with (18446744073709551616 * 18446744073709551616). change (2 ^ 64) with 18446744073709551616.
  rewrite <- H3. f_equal; lia.
Qed.
Lemma top_63_ok h l : 0 <= h < 18446744073709551616 -> 0 <= l < 18446744073709551616 ->
  top_63_bits (h, l) = (h * 18446744073709551616 + l) / 2 ^ 63 mod 2 ^ 63.
Proof.
  intros Hh Hl. unfold top_63_bits, u64. cbn [fst snd]. change (Z.shiftl 1 62) with 4611686018427387904. change (4611686018427387904 mod 18446744073709551616 - 1) with (Z.ones 62).
  rewrite Z.land_ones by lia. rewrite Z.shiftl_mul_pow2, Z.shiftr_div_pow2 by lia.
  change (2 ^ 62) with 4611686018427387904. change (2 ^ 63) with 9223372036854775808. change (2 ^ 1) with 2.
  rewrite (Z.mod_small (_ * 2)) by lia. rewrite <- (Z.shiftl_mul_pow2 _ 1) by lia. rewrite lor_add by (change (2 ^ 1) with 2; lia).
  change (2 ^ 1) with 2. lia.
Qed.
Lemma mul_top_ok a b : 0 <= a < 18446744073709551616 -> 0 <= b < 18446744073709551616 ->
  top_63_bits (full_mul_u64 a b) = a * b / 2 ^ 63 mod 2 ^ 63.
Proof.
  intros Ha Hb. pose proof (full_mul_ok a b Ha Hb) as H. destruct (full_mul_u64 a b) as [h l]. destruct H as (H1 & H2 & H3).
  rewrite top_63_ok by assumption. rewrite H3. reflexivity.
Qed.

(** ** Bernoulli loop *)
Lemma bytes_at_S g pos n : bytes_at g pos (S n) = g pos :: bytes_at g (S pos) n.
Proof.
  unfold bytes_at. cbn [seq map]. rewrite Nat.add_0_r. f_equal. rewrite <- seq_shift, map_map. apply map_ext. intros i. f_equal. lia.
Qed.
Lemma bytes_at_len g pos n : length (bytes_at g pos n) = n.
Proof. unfold bytes_at. rewrite map_length. apply seq_length. Qed.
Lemma bytes_at_ok g pos n : (forall i, byte (g i)) -> bytes (bytes_at g pos n).
Proof. intros H. apply Forall_map, Forall_forall. intros. apply H. Qed.
Lemma pow8 k : 2 ^ (8 * Z.of_nat k) = 256 ^ Z.of_nat k.
Proof. rewrite Z.pow_mul_r by lia. reflexivity. Qed.

Lemma div_split k m d r : (m <= k)%nat -> (d * 256 ^ Z.of_nat k + r) / 256 ^ Z.of_nat (k - m) = d * 256 ^ Z.of_nat m + r / 256 ^ Z.of_nat (k - m).
Proof.
  intros H. assert (E : 256 ^ Z.of_nat k = 256 ^ Z.of_nat m * 256 ^ Z.of_nat (k - m)).
  { rewrite <- Z.pow_add_r by lia. replace (Z.of_nat m + Z.of_nat (k - m)) with (Z.of_nat k) by lia. reflexivity. }
  rewrite E, Z.mul_assoc. apply Z.div_add_l. apply Z.pow_nonzero; lia.
Qed.
Lemma ber_loop_ok k z g pos : (0 < k)%nat -> 0 <= z -> (forall i, byte (g i)) ->
  exists w n, ber_loop k z g pos = (w, (pos + n)%nat) /\
    (w <? 0) = (be_value 256 (bytes_at g pos k) <? z mod 256 ^ Z.of_nat k) /\ (1 <= n <= k)%nat /\
    (forall m, (m < n)%nat -> be_value 256 (bytes_at g pos m) = z mod 256 ^ Z.of_nat k / 256 ^ Z.of_nat (k - m)) /\
    (n = k \/ be_value 256 (bytes_at g pos n) <> z mod 256 ^ Z.of_nat k / 256 ^ Z.of_nat (k - n)).
Proof.
  intros Hk Hz Hg. revert pos. induction k as [|k IH]; [lia|]. intros pos. cbn [ber_loop].
  rewrite Z.shiftr_div_pow2 by lia. rewrite land255, pow8.
  assert (P : 0 < 256 ^ Z.of_nat k) by (apply Z.pow_pos_nonneg; lia).
  pose proof (be_value_range _ (bytes_at_ok g (S pos) k Hg)) as RB. rewrite bytes_at_len in RB.
  assert (E : z mod 256 ^ Z.of_nat (S k) = z / 256 ^ Z.of_nat k mod 256 * 256 ^ Z.of_nat k + z mod 256 ^ Z.of_nat k).
  { rewrite Nat2Z.inj_succ, Z.pow_succ_r by lia. rewrite (Z.mul_comm 256), Z.rem_mul_r by lia. lia. }
  pose proof (Z.mod_pos_bound z _ P) as RZ. pose proof (Z.mod_pos_bound (z / 256 ^ Z.of_nat k) 256 ltac:(lia)) as RD.
  pose proof (Hg pos) as HB. unfold byte in HB.
  assert (PS : 256 ^ Z.of_nat (S k) = 256 * 256 ^ Z.of_nat k) by (rewrite Nat2Z.inj_succ, Z.pow_succ_r by lia; reflexivity).
  assert (D1 : z mod 256 ^ Z.of_nat (S k) / 256 ^ Z.of_nat k = z / 256 ^ Z.of_nat k mod 256).
  { rewrite E, Z.div_add_l by lia. rewrite (Z.div_small (z mod _)) by lia. apply Z.add_0_r. }
  assert (D0 : z mod 256 ^ Z.of_nat (S k) / 256 ^ Z.of_nat (S k) = 0).
  { apply Z.div_small. apply Z.mod_pos_bound. lia. }
  set (d := z / 256 ^ Z.of_nat k mod 256) in *.
  destruct (Z.eqb_spec (g pos - d) 0) as [W|W].
  - apply Zminus_eq in W. destruct (Nat.eq_dec k 0) as [->|Nk].
    + change (0 <? 8 * Z.of_nat 0) with false. cbn [andb]. exists (g pos - d), 1%nat.
      split; [f_equal; lia|]. split; [|split; [lia|split; [|left; reflexivity]]].
      * rewrite bytes_at_S, be_value_cons, bytes_at_len, E. change (256 ^ Z.of_nat 0) with 1. rewrite Z.mod_1_r.
        change (be_value 256 (bytes_at g (S pos) 0)) with 0.
        rewrite W, Z.sub_diag, Z.ltb_irrefl. symmetry. apply Z.ltb_irrefl.
      * intros m Hm. assert (m = 0%nat) by lia. subst m. cbn [Nat.sub]. rewrite D0. reflexivity.
    + replace (0 <? 8 * Z.of_nat k) with true by (symmetry; apply Z.ltb_lt; lia). cbn [andb].
      destruct (IH ltac:(lia) (S pos)) as (w & n & H1 & H2 & H3 & H4 & H5). exists w, (S n).
      split; [rewrite H1; f_equal; lia|]. split; [|split; [lia|split]].
      * rewrite H2, bytes_at_S, be_value_cons, bytes_at_len, E. rewrite W.
        set (x := be_value 256 _) in *. clear -RB RZ P. destruct (Z.ltb_spec x (z mod 256 ^ Z.of_nat k)), (Z.ltb_spec (d * 256 ^ Z.of_nat k + x) (d * 256 ^ Z.of_nat k + z mod 256 ^ Z.of_nat k)); try reflexivity; lia.
      * intros [|m] Hm; [cbn [Nat.sub]; rewrite D0; reflexivity|]. rewrite bytes_at_S, be_value_cons, bytes_at_len, H4 by (clear -Hm; lia).
        cbn [Nat.sub]. rewrite E, (div_split k m) by (clear -Hm H3; lia). rewrite W. reflexivity.
      * destruct H5 as [->|H5]; [left; reflexivity|right]. rewrite bytes_at_S, be_value_cons, bytes_at_len. cbn [Nat.sub]. rewrite E, (div_split k n) by (clear -H3; lia). rewrite W. clear -H5. lia.
  - cbn [andb]. exists (g pos - d), 1%nat. split; [f_equal; lia|]. split; [|split; [lia|split]].
    + rewrite bytes_at_S, be_value_cons, bytes_at_len, E. set (x := be_value 256 _) in *.
clear -W RB RZ RD P.
      destruct (Z.ltb_spec (g pos - d) 0), (Z.ltb_spec (g pos * 256 ^ Z.of_nat k + x) (d * 256 ^ Z.of_nat k + z mod 256 ^ Z.of_nat k)); try reflexivity; nia.
    + intros m Hm. assert (m = 0%nat) by lia. subst m. cbn [Nat.sub]. rewrite D0. reflexivity.
    + right. rewrite bytes_at_S, be_value_cons, bytes_at_len. cbn [Nat.sub]. rewrite Nat.sub_0_r, D1.
      change (be_value 256 (bytes_at g (S pos) 0)) with 0. change (256 ^ Z.of_nat 0) with 1. lia.
Qed.
