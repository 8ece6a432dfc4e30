(** P_prob.v -- distribution of samplerz over uniformly random byte strings, for any floating point behaviour. *)
From Verif Require Import Base Spec SpecG M_float M_samp P_codec P_samp P_sampz.
From Coq Require Import Reals Lra.
Open Scope R_scope.

(** ** sums and averages *)
Fixpoint rsum (n : nat) (f : nat -> R) : R := match n with O => 0 | S m => rsum m f + f m end.
Lemma rsum_ext n f g : (forall i, (i < n)%nat -> f i = g i) -> rsum n f = rsum n g.
Proof. intros H. induction n as [|n IH]; [reflexivity|]. cbn [rsum]. rewrite IH by (intros i Hi; apply H; lia). rewrite H by lia. reflexivity. Qed.
Lemma rsum_plus n f g : rsum n (fun i => f i + g i) = rsum n f + rsum n g.
Proof. induction n as [|n IH]; cbn [rsum]; [lra|]. rewrite IH. ring. Qed.
Lemma rsum_scal n c f : rsum n (fun i => c * f i) = c * rsum n f.
Proof. induction n as [|n IH]; cbn [rsum]; [lra|]. rewrite IH. ring. Qed.
Lemma rsum_const n c : rsum n (fun _ => c) = INR n * c.
Proof. induction n as [|n IH]; [cbn; lra|]. cbn [rsum]. rewrite IH, S_INR. ring. Qed.
Lemma rsum_zsum n f : IZR (zsum n f) = rsum n (fun i => IZR (f i)).
Proof. induction n as [|n IH]; [reflexivity|]. cbn [zsum rsum]. rewrite plus_IZR, IH. reflexivity. Qed.
Lemma rsum_app n m f : rsum (n + m) f = rsum n f + rsum m (fun i => f (n + i)%nat).
Proof. induction m as [|m IH]; [rewrite Nat.add_0_r; cbn [rsum]; lra|]. rewrite Nat.add_succ_r. cbn [rsum]. rewrite IH. ring. Qed.
Lemma rsum_swap n m f : rsum n (fun i => rsum m (fun j => f i j)) = rsum m (fun j => rsum n (fun i => f i j)).
Proof. induction n as [|n IH]; cbn [rsum]; [rewrite rsum_const; ring|]. rewrite IH, <- rsum_plus. reflexivity. Qed.
(** one non-zero term *)
Lemma rsum_one n k f : (k < n)%nat -> (forall i, (i < n)%nat -> i <> k -> f i = 0) -> rsum n f = f k.
Proof.
  intros Hk H. induction n as [|n IH]; [lia|]. cbn [rsum]. destruct (Nat.eq_dec k n) as [->|Hn].
  - rewrite (rsum_ext n f (fun _ => 0)) by (intros i Hi; apply H; lia). rewrite rsum_const. ring.
  - rewrite IH by (try lia; intros i Hi; apply H; lia). rewrite (H n) by lia. ring.
Qed.

Fixpoint avg (n : nat) (f : list Z -> R) : R := match n with O => f [] | S m => rsum 256 (fun b => avg m (fun s => f (Z.of_nat b :: s))) / 256 end.
Definition ind (b : bool) : R := if b then 1 else 0.
Lemma prob_avg n P : prob n P = avg n (fun s => ind (P s)).
Proof.
  unfold prob. revert P. induction n as [|n IH]; intros P; [cbn [count avg pow]; destruct (P []); cbn [ind]; lra|].
  cbn [count avg]. rewrite rsum_zsum. rewrite (rsum_ext 256 (fun b => avg n (fun s => ind (P (Z.of_nat b :: s)))) (fun b => / 256 ^ n * IZR (count n (fun s => P (Z.of_nat b :: s))))).
  - rewrite rsum_scal. cbn [pow]. field. apply pow_nonzero. lra.
  - intros b _. rewrite <- IH. unfold Rdiv. ring.
Qed.
Lemma avg_ext n f g : (forall s, length s = n -> bytes s -> f s = g s) -> avg n f = avg n g.
Proof.
  revert f g. induction n as [|n IH]; intros f g H; [apply H; [reflexivity|constructor]|]. cbn [avg]. f_equal. apply rsum_ext. intros b Hb. apply IH. intros s L Hs. apply H; [cbn; lia|].
  constructor; [|exact Hs]. unfold byte. lia.
Qed.
Lemma avg_plus n f g : avg n (fun s => f s + g s) = avg n f + avg n g.
Proof. revert f g. induction n as [|n IH]; intros f g; [reflexivity|]. cbn [avg]. rewrite (rsum_ext 256 _ _ (fun b _ => IH _ _)). rewrite rsum_plus. field. Qed.
Lemma avg_scal n c f : avg n (fun s => c * f s) = c * avg n f.
Proof. revert f. induction n as [|n IH]; intros f; [reflexivity|]. cbn [avg]. rewrite (rsum_ext 256 _ _ (fun b _ => IH _)). rewrite rsum_scal. field. Qed.
Lemma avg_const n c : avg n (fun _ => c) = c.
Proof. induction n as [|n IH]; [reflexivity|]. cbn [avg]. rewrite (rsum_ext 256 _ (fun _ => c)) by (intros; exact IH). rewrite rsum_const. replace (INR 256) with 256 by (simpl; lra). field. Qed.
Lemma avg_rsum n m (f : nat -> list Z -> R) : avg n (fun s => rsum m (fun i => f i s)) = rsum m (fun i => avg n (f i)).
Proof. induction m as [|m IH]; [exact (avg_const n 0)|]. cbn [rsum]. rewrite avg_plus, IH. reflexivity. Qed.
Lemma avg_split n m f : avg (n + m) f = avg n (fun u => avg m (fun s => f (u ++ s))).
Proof. revert f. induction n as [|n IH]; intros f; [reflexivity|]. cbn [Nat.add avg]. f_equal. apply rsum_ext. intros b _. rewrite IH. reflexivity. Qed.

(** ** digits *)
Lemma ceil_sum c : rsum 256 (fun b => IZR ((c - Z.of_nat b + 255) / 256)) = IZR c.
Proof.
  assert (G : zsum 256 (fun b => (c - Z.of_nat b + 255) / 256)%Z = c); [|rewrite <- rsum_zsum, G; reflexivity].
  pose proof (Z.div_mod c 256 ltac:(lia)) as E. pose proof (Z.mod_pos_bound c 256 ltac:(lia)) as B. set (qq := (c / 256)%Z) in *. set (r := (c mod 256)%Z) in *.
  assert (T : forall n, (n <= 256)%nat -> zsum n (fun b => (c - Z.of_nat b + 255) / 256)%Z = (Z.of_nat n * qq + Z.min (Z.of_nat n) r)%Z).
  { induction n as [|n IH]; intros Hn; [cbn [zsum]; lia|]. cbn [zsum]. rewrite IH by lia. destruct (Z.lt_ge_cases (Z.of_nat n) r) as [H|H].
    - assert (X : ((c - Z.of_nat n + 255) / 256 = qq + 1)%Z) by (symmetry; apply (Z.div_unique _ 256 _ (r - Z.of_nat n - 1)); lia). rewrite X. lia.
    - assert (X : ((c - Z.of_nat n + 255) / 256 = qq)%Z) by (symmetry; apply (Z.div_unique _ 256 _ (r - Z.of_nat n + 255)); lia). rewrite X. lia. }
  rewrite T by lia. lia.
Qed.
Lemma avg_le n c : (0 <= c <= 256 ^ Z.of_nat n)%Z -> avg n (fun u => ind (le_value 256 u <? c)%Z) = IZR c / 256 ^ n.
Proof.
  revert c. induction n as [|n IH]; intros c Hc.
  - cbn [avg pow le_value fold_right]. change (256 ^ Z.of_nat 0)%Z with 1%Z in Hc. assert (c = 0 \/ c = 1)%Z as [->| ->] by lia; cbn [Z.ltb Z.compare ind]; lra.
  - cbn [avg]. rewrite Nat2Z.inj_succ, Z.pow_succ_r in Hc by lia.
    rewrite (rsum_ext 256 _ (fun b => / 256 ^ n * IZR ((c - Z.of_nat b + 255) / 256))).
    + rewrite rsum_scal, ceil_sum. cbn [pow]. field. apply pow_nonzero. lra.
    + intros b Hb. rewrite (avg_ext n _ (fun u => ind (le_value 256 u <? (c - Z.of_nat b + 255) / 256)%Z)).
      * rewrite IH; [unfold Rdiv; ring|]. split; [apply Z.div_pos; lia|]. apply Z.lt_succ_r. apply Z.div_lt_upper_bound; lia.
      * intros u _ _. f_equal. change (le_value 256 (Z.of_nat b :: u)) with (Z.of_nat b + 256 * le_value 256 u)%Z. set (l := le_value 256 u). apply Bool.eq_iff_eq_true. rewrite !Z.ltb_lt.
        split; intros H.
        -- assert (l + 1 <= (c - Z.of_nat b + 255) / 256)%Z by (apply Z.div_le_lower_bound; lia). lia.
        -- pose proof (Z.mul_div_le (c - Z.of_nat b + 255) 256 ltac:(lia)). lia.
Qed.
(** the table value chosen by nine bytes *)
Definition zchoice (u : list Z) : nat := Z.to_nat (match base_sampler u with Ok z => z | _ => 0%Z end).
Lemma zchoice_ok u : length u = 9%nat -> bytes u -> (zchoice u < 19)%nat /\ base_sampler u = Ok (Z.of_nat (zchoice u)) /\
  forall i, (i < 19)%nat -> ind (zchoice u =? i)%nat = ind (le_value 256 u <? tail_mass i + nth i pdt 0)%Z - ind (le_value 256 u <? tail_mass i)%Z.
Proof.
  intros L H. destruct (base_total u L H) as (z & Hz & E). unfold zchoice. rewrite E, Nat2Z.id. split; [exact Hz|]. split; [reflexivity|]. intros i Hi.
  assert (B := base_interval u i L H Hi). destruct (pdt_tail i Hi) as [P _]. destruct (Nat.eqb_spec z i) as [->|N].
  - apply B in E. destruct (Z.ltb_spec (le_value 256 u) (tail_mass i + nth i pdt 0%Z)), (Z.ltb_spec (le_value 256 u) (tail_mass i)); cbn [ind]; try lia; lra.
  - assert (X : ~ (tail_mass i <= le_value 256 u < tail_mass i + nth i pdt 0)%Z). { intros X. apply B in X. rewrite E in X. injection X as X. lia. }
    destruct (Z.ltb_spec (le_value 256 u) (tail_mass i + nth i pdt 0%Z)), (Z.ltb_spec (le_value 256 u) (tail_mass i)); cbn [ind]; try lia; lra.
Qed.
Lemma avg_choice (phi : nat -> R) : avg 9 (fun u => phi (zchoice u)) = rsum 19 (fun i => IZR (nth i pdt 0%Z) / 2 ^ 72 * phi i).
Proof.
  rewrite (avg_ext 9 _ (fun u => rsum 19 (fun i => phi i * (ind (le_value 256 u <? tail_mass i + nth i pdt 0)%Z + (-1) * ind (le_value 256 u <? tail_mass i)%Z)))).
  - rewrite avg_rsum. apply rsum_ext. intros i Hi. rewrite avg_scal, avg_plus, avg_scal. destruct (pdt_tail i Hi) as [P E].
    assert (T0 : (0 <= tail_mass i)%Z). { destruct (Nat.eq_dec i 18) as [->|N]; [rewrite tail_18; lia|]. assert (T := tail_dec i 18 ltac:(lia) ltac:(lia)). rewrite tail_18 in T. lia. }
    assert (T1 : (tail_mass i + nth i pdt 0 <= 2 ^ 72)%Z). { rewrite E. destruct i as [|j]; [lia|]. destruct j as [|j]; [vm_compute; discriminate|]. assert (T := tail_dec 0 (S j) ltac:(lia) ltac:(lia)). change (tail_mass 0) with 3024686241123004913666%Z in T. change (2 ^ 72)%Z with 4722366482869645213696%Z. lia. }
    rewrite !avg_le by (change (256 ^ Z.of_nat 9)%Z with (2 ^ 72)%Z; lia). rewrite plus_IZR. replace (256 ^ 9) with (2 ^ 72) by (simpl; lra). field.
  - intros u L H. destruct (zchoice_ok u L H) as (Hz & _ & I). rewrite (rsum_ext 19 _ (fun i => phi i * ind (zchoice u =? i)%nat)).
    + rewrite (rsum_one 19 (zchoice u)); [rewrite Nat.eqb_refl; cbn [ind]; ring|exact Hz|]. intros i _ N. destruct (Nat.eqb_spec (zchoice u) i); [congruence|]. cbn [ind]. ring.
    + intros i Hi. rewrite (I i Hi). f_equal. ring.
Qed.
Lemma avg_parity (phi : Z -> R) : avg 1 (fun u => phi (nth 0 u 0 mod 2)%Z) = (phi 0%Z + phi 1%Z) / 2.
Proof.
  cbn [avg nth]. assert (G : forall m, rsum (m + m) (fun b => phi (Z.of_nat b mod 2)%Z) = INR m * (phi 0%Z + phi 1%Z)).
  { induction m as [|m IH]; [cbn; ring|]. replace (S m + S m)%nat with (S (S (m + m))) by lia. cbn [rsum]. rewrite IH, S_INR.
    assert (E0 : (Z.of_nat (m + m) mod 2 = 0)%Z) by (symmetry; apply (Z.mod_unique _ _ (Z.of_nat m)); lia). assert (E1 : (Z.of_nat (S (m + m)) mod 2 = 1)%Z) by (symmetry; apply (Z.mod_unique _ _ (Z.of_nat m)); lia). rewrite E0, E1. ring. }
  change 256%nat with (128 + 128)%nat at 1. rewrite G. replace (INR 128) with 128 by (simpl; lra). field.
Qed.

(** ** the byte comparison *)
Lemma stream_cons b s i : stream (b :: s) (S i) = stream s i. Proof. reflexivity. Qed.
Lemma ber_loop_shift k z g g' p q : (forall i, g (p + i)%nat = g' i) -> ber_loop k z g (p + q) = let '(w, r) := ber_loop k z g' q in (w, (p + r)%nat).
Proof.
  intros H. revert q. induction k as [|k IH]; intros q; cbn [ber_loop]; [reflexivity|]. rewrite H. destruct (_ && _); [|f_equal; lia].
  replace (S (p + q)) with (p + S q)%nat by lia. apply IH.
Qed.
Lemma avg_ber k z m m0 (A Rj : R) (phi : list Z -> R) : (0 < k)%nat -> (0 <= z)%Z -> (k + m0 <= m)%nat -> (forall m', (m0 <= m')%nat -> avg m' phi = Rj) ->
  avg m (fun s => let '(w, r) := ber_loop k z (stream s) 0 in if (w <? 0)%Z then A else phi (skipn r s)) =
  IZR (z mod 256 ^ Z.of_nat k) / 256 ^ k * A + (1 - IZR (z mod 256 ^ Z.of_nat k) / 256 ^ k) * Rj.
Proof.
  revert m. induction k as [|k IH]; [lia|]. intros m _ Hz Hm HR. destruct m as [|m]; [lia|]. cbn [avg].
  assert (P : (0 < 256 ^ Z.of_nat k)%Z) by (apply Z.pow_pos_nonneg; lia).
  assert (E : (z mod 256 ^ Z.of_nat (S k) = z / 256 ^ Z.of_nat k mod 256 * 256 ^ Z.of_nat k + z mod 256 ^ Z.of_nat k)%Z).
  { rewrite Nat2Z.inj_succ, Z.pow_succ_r by lia. rewrite (Z.mul_comm 256), Z.rem_mul_r by lia. lia. }
  pose proof (Z.mod_pos_bound (z / 256 ^ Z.of_nat k) 256 ltac:(lia)) as RD. set (d := (z / 256 ^ Z.of_nat k mod 256)%Z) in *.
  set (B := if Nat.eqb k 0 then Rj else IZR (z mod 256 ^ Z.of_nat k) / 256 ^ k * A + (1 - IZR (z mod 256 ^ Z.of_nat k) / 256 ^ k) * Rj).
  rewrite (rsum_ext 256 _ (fun b => if (Z.of_nat b <? d)%Z then A else if (Z.of_nat b =? d)%Z then B else Rj)).
  - assert (G : forall n, (n <= 256)%nat -> rsum n (fun b => if (Z.of_nat b <? d)%Z then A else if (Z.of_nat b =? d)%Z then B else Rj) =
        if (Z.of_nat n <=? d)%Z then INR n * A else IZR d * A + B + (INR n - IZR d - 1) * Rj).
    { induction n as [|n IHn]; intros Hn; [destruct (Z.leb_spec (Z.of_nat 0) d); [cbn; ring|lia]|]. cbn [rsum]. rewrite IHn, S_INR by lia.
      destruct (Z.leb_spec (Z.of_nat n) d), (Z.leb_spec (Z.of_nat (S n)) d), (Z.ltb_spec (Z.of_nat n) d), (Z.eqb_spec (Z.of_nat n) d); try lia; try ring.
      assert (X : INR n = IZR d) by (rewrite INR_IZR_INZ; f_equal; assumption). rewrite X. ring. }
    rewrite G by lia. destruct (Z.leb_spec (Z.of_nat 256) d); [lia|]. replace (INR 256) with 256 by (simpl; lra). rewrite E, plus_IZR, mult_IZR, <- pow_IZR.
    assert (N : 256 ^ k <> 0) by (apply pow_nonzero; lra). unfold B. destruct (Nat.eqb_spec k 0) as [->|Hk]; [change (256 ^ Z.of_nat 0)%Z with 1%Z; rewrite Z.mod_1_r; cbn [pow]; field|]. cbn [pow]. field. exact N.
  - intros b Hb. cbn [ber_loop]. rewrite Z.shiftr_div_pow2 by lia. rewrite land255, pow8. fold d.
    destruct (Z.eqb_spec (Z.of_nat b) d) as [Eb|Nb].
    + destruct (Z.ltb_spec (Z.of_nat b) d); [lia|]. unfold B. destruct (Nat.eqb_spec k 0) as [->|Hk].
      * rewrite (avg_ext m _ phi); [apply HR; lia|]. intros s _ _. change (stream (Z.of_nat b :: s) 0%nat) with (Z.of_nat b). rewrite Eb, Z.sub_diag. reflexivity.
      * rewrite <- (IH m) by (try assumption; lia). apply avg_ext. intros s _ _. change (stream (Z.of_nat b :: s) 0%nat) with (Z.of_nat b). rewrite Eb, Z.sub_diag. cbn [Z.eqb].
        replace (0 <? 8 * Z.of_nat k)%Z with true by (symmetry; apply Z.ltb_lt; lia). cbn [andb]. change 1%nat with (1 + 0)%nat. rewrite (ber_loop_shift k z _ (stream s) 1 0) by (intros i; reflexivity).
        destruct (ber_loop k z (stream s) 0) as [w r]. reflexivity.
    + rewrite (avg_ext m _ (fun s => if (Z.of_nat b <? d)%Z then A else phi s)).
      * destruct (Z.ltb_spec (Z.of_nat b) d); [apply avg_const|apply HR; lia].
      * intros s _ _. change (stream (Z.of_nat b :: s) 0%nat) with (Z.of_nat b). destruct (Z.eqb_spec (Z.of_nat b - d) 0); [lia|]. cbn [andb skipn].
        destruct (Z.ltb_spec (Z.of_nat b - d) 0), (Z.ltb_spec (Z.of_nat b) d); try lia; reflexivity.
Qed.

(** ** one attempt, and k attempts *)
Section Samp.
Variable F : fops.
Lemma loop_shift k mu r ccs t0 g g' p q : (forall i, g (p + i)%nat = g' i) ->
  samplerz_loop F k mu r ccs t0 g (p + q) = match samplerz_loop F k mu r ccs t0 g' q with Ok (v, n) => Ok (v, (p + n)%nat) | UB => UB | Fuel => Fuel end.
Proof.
  intros H. revert q. induction k as [|k IH]; intros q; cbn [samplerz_loop]; [reflexivity|]. unfold base_sampler_rng, rng_read.
  rewrite (map_ext (fun i => g (p + q + i)%nat) (fun i => g' (q + i)%nat)) by (intros i; rewrite <- Nat.add_assoc; apply H).
  destruct (base_sampler (map (fun i => g' (q + i)%nat) (seq 0 9))) as [z0| |]; cbn [bind]; [|reflexivity|reflexivity].
  rewrite <- Nat.add_assoc, H. unfold ber_exp. destruct (ber_threshold F _ ccs) as [z| |]; cbn [bind]; [|reflexivity|reflexivity].
  replace (S (p + (q + 9))) with (p + S (q + 9))%nat by lia. rewrite (ber_loop_shift 8 z g g' p (S (q + 9)) H). destruct (ber_loop 8 z g' (S (q + 9))) as [w n]. cbn [bind].
  destruct (b2z (w <? 0) =? 1)%Z; [|apply IH]. destruct (to_i32 F _) as [o| |]; reflexivity.
Qed.
Variables mu sg sm : D F.
Variable th : nat -> Z -> Z.
Variable fl : Z.
Hypothesis TH : forall z0 b, (z0 < 19)%nat -> (b = 0 \/ b = 1)%Z -> thr F mu sg sm z0 b (th z0 b).
Hypothesis TO : forall z, (-18 <= z <= 19)%Z -> to_i32 F (fadd F (fofz F z) (ffloor F mu)) = Ok (fl + z)%Z.
Definition hit (k : nat) (v : Z) (s : list Z) : bool := returns (samplerz F k mu sg sm (stream s) 0) v.
Definition pv (v : Z) : R := rsum 19 (fun i => IZR (nth i pdt 0%Z) / 2 ^ 72 * ((IZR (th i 0) / 2 ^ 64 * ind (fl + zsigned i 0 =? v)%Z + IZR (th i 1) / 2 ^ 64 * ind (fl + zsigned i 1 =? v)%Z) / 2)).
Definition pa : R := rsum 19 (fun i => IZR (nth i pdt 0%Z) / 2 ^ 72 * ((IZR (th i 0) / 2 ^ 64 + IZR (th i 1) / 2 ^ 64) / 2)).
Lemma nth_skip {A} (l : list A) r i d : nth i (skipn r l) d = nth (r + i) l d.
Proof. revert l. induction r as [|r IH]; intros [|x l]; cbn [skipn Nat.add nth]; try reflexivity; [destruct i; reflexivity|]. apply IH. Qed.
Lemma map_stream u s n : length u = n -> map (fun i => stream (u ++ s) (0 + i)%nat) (seq 0 n) = u.
Proof.
  intros <-. apply (nth_ext _ _ (stream (u ++ s) 0%nat) 0%Z); [rewrite map_length, seq_length; reflexivity|]. rewrite map_length, seq_length. intros i Hi.
  rewrite (map_nth (fun i => stream (u ++ s) (0 + i)%nat) (seq 0 (length u)) 0%nat). rewrite seq_nth by exact Hi. unfold stream. apply app_nth1. exact Hi.
Qed.
Lemma hit_step k v u c s : length u = 9%nat -> bytes u -> length c = 1%nat -> let z0 := zchoice u in let b := (nth 0 c 0 mod 2)%Z in
  hit (S k) v (u ++ c ++ s) = let '(w, r) := ber_loop 8 (th z0 b) (stream s) 0 in if (w <? 0)%Z then (fl + zsigned z0 b =? v)%Z else hit k v (skipn r s).
Proof.
  intros Lu Hu Lc z0 b. unfold hit, samplerz. cbn [samplerz_loop]. unfold base_sampler_rng, rng_read. rewrite map_stream by exact Lu. destruct (zchoice_ok u Lu Hu) as (Hz & E & _). rewrite E. cbn [bind]. fold z0. cbn [Nat.add].
  assert (Ec : stream (u ++ c ++ s) 9 = nth 0 c 0%Z). { unfold stream. rewrite app_nth2 by lia. rewrite Lu, Nat.sub_diag, app_nth1 by lia. reflexivity. }
  rewrite Ec, land1. fold b. assert (Hb : (b = 0 \/ b = 1)%Z) by (unfold b; pose proof (Z.mod_pos_bound (nth 0 c 0%Z) 2); lia).
  assert (T := TH z0 b Hz Hb). unfold thr in T. unfold ber_exp. rewrite T. cbn [bind].
  assert (Sh : forall i, stream (u ++ c ++ s) (10 + i)%nat = stream s i). { intros i. unfold stream. rewrite app_assoc, app_nth2; rewrite app_length, Lu, Lc; [f_equal; lia|lia]. }
  change 10%nat with (10 + 0)%nat. rewrite (ber_loop_shift 8 _ _ (stream s) 10 0 Sh). destruct (ber_loop 8 (th z0 b) (stream s) 0) as [w r]. cbn [bind].
  rewrite <- (signed_eq z0 b Hb). destruct (Z.ltb_spec w 0); cbn [b2z Z.eqb Pos.eqb].
  - rewrite TO by (apply signed_range; exact Hz). reflexivity.
  - rewrite <- (Nat.add_0_r (10 + r)). rewrite (loop_shift k _ _ _ _ _ (stream (skipn r s)) (10 + r) 0).
    + destruct (samplerz_loop F k mu _ _ _ (stream (skipn r s)) 0) as [[v' n]| |]; reflexivity.
    + intros i. rewrite <- Nat.add_assoc, Sh. unfold stream. symmetry. apply nth_skip.
Qed.
Lemma th_range z0 b : (z0 < 19)%nat -> (b = 0 \/ b = 1)%Z -> (0 <= th z0 b < 2 ^ 64)%Z.
Proof. intros Hz Hb. exact (threshold_range F _ _ _ (TH z0 b Hz Hb)). Qed.
Lemma hit_prob k v n : (18 * k <= n)%nat -> avg n (fun s => ind (hit k v s)) = pv v * rsum k (fun j => (1 - pa) ^ j).
Proof.
  revert n. induction k as [|k IH]; intros n Hn; [cbn [rsum]; rewrite Rmult_0_r; exact (avg_const n 0)|].
  replace n with (9 + (1 + (n - 10)))%nat by lia. rewrite avg_split.
  set (Ak := pv v * rsum k (fun j => (1 - pa) ^ j)) in *.
  set (t := fun i b => IZR (th i b) / 2 ^ 64). set (e := fun i b => ind (fl + zsigned i b =? v)%Z).
  rewrite (avg_ext 9 _ (fun u => (t (zchoice u) 0%Z * e (zchoice u) 0%Z + (1 - t (zchoice u) 0%Z) * Ak + (t (zchoice u) 1%Z * e (zchoice u) 1%Z + (1 - t (zchoice u) 1%Z) * Ak)) / 2)).
  - rewrite (avg_choice (fun i => (t i 0%Z * e i 0%Z + (1 - t i 0%Z) * Ak + (t i 1%Z * e i 1%Z + (1 - t i 1%Z) * Ak)) / 2)).
    assert (E1 : rsum 19 (fun i => IZR (nth i pdt 0%Z) / 2 ^ 72 * ((t i 0%Z * e i 0%Z + (1 - t i 0%Z) * Ak + (t i 1%Z * e i 1%Z + (1 - t i 1%Z) * Ak)) / 2)) = pv v + (1 - pa) * Ak).
    { unfold pv, pa. assert (U : rsum 19 (fun i => IZR (nth i pdt 0%Z) / 2 ^ 72) = 1). { rewrite (rsum_ext 19 _ (fun i => / 2 ^ 72 * IZR (nth i pdt 0%Z))) by (intros; unfold Rdiv; ring). rewrite rsum_scal, <- rsum_zsum. replace (zsum 19 (fun i => nth i pdt 0%Z)) with (2 ^ Z.of_nat 72)%Z by reflexivity. rewrite <- (pow_IZR 2 72). apply Rinv_l. apply pow_nonzero. lra. }
      rewrite (rsum_ext 19 _ (fun i => IZR (nth i pdt 0%Z) / 2 ^ 72 * ((IZR (th i 0) / 2 ^ 64 * ind (fl + zsigned i 0 =? v)%Z + IZR (th i 1) / 2 ^ 64 * ind (fl + zsigned i 1 =? v)%Z) / 2) +
        (Ak * (IZR (nth i pdt 0%Z) / 2 ^ 72) + (- Ak) * (IZR (nth i pdt 0%Z) / 2 ^ 72 * ((IZR (th i 0) / 2 ^ 64 + IZR (th i 1) / 2 ^ 64) / 2))))) by (intros i _; unfold t, e; field).
      rewrite rsum_plus, rsum_plus, !rsum_scal, U. ring. }
    rewrite E1. cbn [rsum]. assert (E2 : forall m, rsum (S m) (fun j => (1 - pa) ^ j) = 1 + (1 - pa) * rsum m (fun j => (1 - pa) ^ j)). { induction m as [|m IHm]; [cbn; ring|]. cbn [rsum pow] in *. lra. }
    assert (E3 := E2 k). cbn [rsum] in E3. rewrite E3. unfold Ak. ring.
  - intros u Lu Hu. rewrite avg_split.
    rewrite (avg_ext 1 _ (fun c => t (zchoice u) (nth 0 c 0 mod 2)%Z * e (zchoice u) (nth 0 c 0 mod 2)%Z + (1 - t (zchoice u) (nth 0 c 0 mod 2)%Z) * Ak)).
    + rewrite (avg_parity (fun b => t (zchoice u) b * e (zchoice u) b + (1 - t (zchoice u) b) * Ak)). reflexivity.
    + intros c Lc Hc. destruct (zchoice_ok u Lu Hu) as (Hz & _ & _). set (b := (nth 0 c 0 mod 2)%Z). assert (Hb : (b = 0 \/ b = 1)%Z) by (unfold b; pose proof (Z.mod_pos_bound (nth 0 c 0%Z) 2); lia).
      assert (R := th_range _ b Hz Hb).
      rewrite (avg_ext (n - 10) _ (fun s => let '(w, r) := ber_loop 8 (th (zchoice u) b) (stream s) 0 in if (w <? 0)%Z then e (zchoice u) b else ind (hit k v (skipn r s)))).
      * rewrite (avg_ber 8 (th (zchoice u) b) (n - 10) (18 * k) (e (zchoice u) b) Ak (fun s => ind (hit k v s))); try lia; [|exact IH].
        change (256 ^ Z.of_nat 8)%Z with (2 ^ 64)%Z. rewrite Z.mod_small by exact R. replace (256 ^ 8) with (2 ^ 64) by (simpl; lra). reflexivity.
      * intros s _ _. rewrite (hit_step k v u c s Lu Hu Lc). fold b. destruct (ber_loop 8 (th (zchoice u) b) (stream s) 0) as [w r]. destruct (w <? 0)%Z; reflexivity.
Qed.
End Samp.
