(** P_gauss.v -- the table of the base sampler is the Gaussian of deviation 1.8205 on the non-negative integers, scaled by 2^72 and rounded down. *)
From Verif Require Import Base Spec SpecG P_exp.
From Coq Require Import Reals Lra.
Open Scope R_scope.

(** fixed-point numbers with an error bound: X is within (snd p) / w of (fst p) / w *)
Definition w : Z := (2 ^ 110)%Z.
Definition nr (X : R) (p : Z * Z) : Prop := Rabs (X * IZR w - IZR (fst p)) <= IZR (snd p).
Lemma w_pos : 0 < IZR w. Proof. apply (IZR_lt 0). reflexivity. Qed.
Lemma ab x y : Rabs x <= y -> - y <= x <= y.
Proof. intros H. assert (G := Rle_abs x). assert (G' := Rle_abs (- x)). rewrite Rabs_Ropp in G'. lra. Qed.
Definition fmulp (p q : Z * Z) : Z * Z := (Z.shiftr (fst p * fst q) 110, snd p + snd q + 2)%Z.
Lemma fmulp_ok X Y p q : 0 <= X <= 1 -> 0 <= Y <= 1 -> (0 <= snd p)%Z -> (0 <= snd q)%Z -> (snd p * snd q <= w)%Z -> nr X p -> nr Y q -> nr (X * Y) (fmulp p q).
Proof.
  unfold nr, fmulp. destruct p as [a ea], q as [b eb]. cbn [fst snd]. rewrite Z.shiftr_div_pow2 by discriminate. fold w. intros HX HY Pa Pb Hs Ha Hb. assert (W := w_pos). apply ab in Ha. apply ab in Hb.
  apply IZR_le in Pa. apply IZR_le in Pb. apply IZR_le in Hs. rewrite mult_IZR in Hs.
  assert (Dv := div_real (a * b) w eq_refl). rewrite mult_IZR in Dv. set (dd := IZR (a * b / w)) in *. set (W0 := IZR w) in *. set (A0 := IZR a) in *. set (B0 := IZR b) in *. set (EA := IZR ea) in *. set (EB := IZR eb) in *.
  assert (E : X * Y * W0 - A0 * B0 / W0 = (X * W0 - A0) * Y + (Y * W0 - B0) * X - (X * W0 - A0) * (Y * W0 - B0) / W0) by (field; lra).
  assert (P1 : Rabs ((X * W0 - A0) * Y) <= EA). { rewrite Rabs_mult, (Rabs_pos_eq Y) by lra. rewrite <- (Rmult_1_r EA). apply Rmult_le_compat; try apply Rabs_pos; try lra. apply Rabs_le. lra. }
  assert (P2 : Rabs ((Y * W0 - B0) * X) <= EB). { rewrite Rabs_mult, (Rabs_pos_eq X) by lra. rewrite <- (Rmult_1_r EB). apply Rmult_le_compat; try apply Rabs_pos; try lra. apply Rabs_le. lra. }
  assert (P3 : Rabs ((X * W0 - A0) * (Y * W0 - B0) / W0) <= 1).
  { unfold Rdiv. rewrite Rabs_mult, Rabs_mult, (Rabs_pos_eq (/ W0)) by (left; apply Rinv_0_lt_compat; exact W). apply (Rmult_le_reg_r W0); [exact W|]. rewrite Rmult_assoc, Rinv_l, Rmult_1_r, Rmult_1_l by lra.
    eapply Rle_trans; [|exact Hs]. apply Rmult_le_compat; try apply Rabs_pos; apply Rabs_le; lra. }
  apply ab in P1. apply ab in P2. apply ab in P3. rewrite !plus_IZR. fold EA EB. apply Rabs_le. lra.
Qed.

(** exp(-x) for x = a/b, 0 <= x <= 1/4: the alternating series with floored terms *)
Fixpoint zterm (a b : Z) (i : nat) : Z := match i with O => w | S j => (zterm a b j * a / (b * Z.of_nat i))%Z end.
Fixpoint zalt (a b : Z) (n : nat) : Z := match n with O => zterm a b 0 | S j => (zalt a b j + (if Nat.even n then 1 else -1) * zterm a b n)%Z end.
Lemma zterm_ok a b i : (0 <= a)%Z -> (0 < b)%Z -> (4 * a <= b)%Z -> Rabs (eterm (IZR a / IZR b) i * IZR w - IZR (zterm a b i)) <= 2.
Proof.
  intros Ha Hb Hab. assert (Pb : 0 < IZR b) by (apply (IZR_lt 0); exact Hb). assert (Pa : 0 <= IZR a) by (apply (IZR_le 0); exact Ha). apply IZR_le in Hab. rewrite mult_IZR in Hab.
  induction i as [|i IH]; [cbn [zterm]; unfold eterm; cbn [fact pow]; change (INR 1) with 1; replace (1 / 1 * IZR w - IZR w) with 0 by field; rewrite Rabs_R0; lra|].
  cbn [zterm]. rewrite eterm_S. assert (Pi : 1 <= INR (S i)) by (apply (le_INR 1); lia).
  assert (Hd : (0 < b * Z.of_nat (S i))%Z) by lia. assert (Dv := div_real (zterm a b i * a) _ Hd). rewrite !mult_IZR, <- INR_IZR_INZ in Dv.
  set (z := IZR (zterm a b i)) in *. set (e := eterm (IZR a / IZR b) i) in *. set (y := IZR (zterm a b i * a / (b * Z.of_nat (S i)))) in *. set (n := INR (S i)) in *. set (W0 := IZR w) in *.
  assert (E : e * (IZR a / IZR b) / n * W0 - z * IZR a / (IZR b * n) = (e * W0 - z) * (IZR a / IZR b / n)) by (field; lra).
  assert (Q : 0 <= IZR a / IZR b / n <= 1 / 4).
  { split; [apply Rmult_le_pos; [apply Rmult_le_pos; [exact Pa|]|]; left; apply Rinv_0_lt_compat; lra|].
    apply (Rmult_le_reg_r (IZR b * n)); [apply Rmult_lt_0_compat; lra|]. replace (IZR a / IZR b / n * (IZR b * n)) with (IZR a) by (field; lra). assert (IZR b * 1 <= IZR b * n) by (apply Rmult_le_compat_l; lra). lra. }
  assert (P : Rabs ((e * W0 - z) * (IZR a / IZR b / n)) <= 2 * (1 / 4)). { rewrite Rabs_mult, (Rabs_pos_eq (IZR a / IZR b / n)) by lra. apply Rmult_le_compat; try apply Rabs_pos; lra. }
  apply ab in P. apply Rabs_le. lra.
Qed.
Lemma zalt_ok a b n : (0 <= a)%Z -> (0 < b)%Z -> (4 * a <= b)%Z -> Rabs (sum_f_R0 (tg_alt (eterm (IZR a / IZR b))) n * IZR w - IZR (zalt a b n)) <= 2 * INR (S n).
Proof.
  intros Ha Hb Hab. induction n as [|n IH].
  - cbn [sum_f_R0 zalt]. unfold tg_alt. replace ((-1) ^ 0 * eterm (IZR a / IZR b) 0) with (eterm (IZR a / IZR b) 0) by (simpl; ring). assert (G := zterm_ok a b 0 Ha Hb Hab). change (INR 1) with 1. lra.
  - cbn [zalt]. change (sum_f_R0 (tg_alt (eterm (IZR a / IZR b))) (S n)) with (sum_f_R0 (tg_alt (eterm (IZR a / IZR b))) n + tg_alt (eterm (IZR a / IZR b)) (S n)).
    rewrite plus_IZR, mult_IZR. unfold tg_alt at 2. assert (G := zterm_ok a b (S n) Ha Hb Hab).
    assert (E : (-1) ^ (S n) = IZR (if Nat.even (S n) then 1 else -1)). { destruct (Nat.even (S n)) eqn:Ev; [apply Nat.even_spec in Ev; destruct Ev as [m ->]; apply pow_1_even|]. assert (Od : Nat.odd (S n) = true) by (unfold Nat.odd; rewrite Ev; reflexivity). apply Nat.odd_spec in Od. destruct Od as [m ->]. replace (2 * m + 1)%nat with (S (2 * m)) by lia. apply pow_1_odd. }
    rewrite E. rewrite (S_INR (S n)). apply ab in G. apply ab in IH. apply Rabs_le. destruct (Nat.even (S n)); lra.
Qed.
Lemma exp_ok a b n : (0 <= a)%Z -> (0 < b)%Z -> (4 * a <= b)%Z -> (zterm a b (S (2 * n)) <= 0)%Z -> nr (exp (- (IZR a / IZR b))) (zalt a b (2 * n), 4 * Z.of_nat n + 8)%Z.
Proof.
  intros Ha Hb Hab Hz. unfold nr. cbn [fst snd]. assert (Pb : 0 < IZR b) by (apply (IZR_lt 0); exact Hb). assert (W := w_pos).
  assert (Hx : 0 <= IZR a / IZR b <= 1). { assert (Pa : 0 <= IZR a) by (apply (IZR_le 0); exact Ha). apply IZR_le in Hab. rewrite mult_IZR in Hab. split; [apply Rmult_le_pos; [exact Pa|left; apply Rinv_0_lt_compat; exact Pb]|]. apply (Rmult_le_reg_r (IZR b)); [exact Pb|]. replace (IZR a / IZR b * IZR b) with (IZR a) by (field; lra). lra. }
  destruct (exp_alt n _ Hx) as [L U]. assert (G := zalt_ok a b (2 * n) Ha Hb Hab). assert (T := zterm_ok a b (S (2 * n)) Ha Hb Hab). apply (IZR_le _ 0) in Hz.
  change (sum_f_R0 (tg_alt (eterm (IZR a / IZR b))) (S (2 * n))) with (sum_f_R0 (tg_alt (eterm (IZR a / IZR b))) (2 * n) + tg_alt (eterm (IZR a / IZR b)) (S (2 * n))) in L.
  unfold tg_alt at 2 in L. rewrite pow_1_odd in L. set (s := sum_f_R0 _ (2 * n)) in *. set (e := eterm _ (S (2 * n))) in *. set (x := exp _) in *.
  rewrite S_INR, mult_INR in G. change (INR 2) with 2 in G. rewrite plus_IZR, mult_IZR, <- INR_IZR_INZ. apply ab in G. apply ab in T.
  assert (L' : (s + -1 * e) * IZR w <= x * IZR w) by (apply Rmult_le_compat_r; lra). assert (U' : x * IZR w <= s * IZR w) by (apply Rmult_le_compat_r; lra). apply Rabs_le. lra.
Qed.

(** ** the weights of the base sampler *)
Definition tt : R := exp (- (IZR 2000000 / IZR 13256881)).
Lemma rho_pow k : rho smax 0 (INR k) = tt ^ (k * k).
Proof.
  unfold rho, tt, smax. assert (E : - ((INR k - 0) ^ 2 / (2 * (18205 / 10000) ^ 2)) = INR (k * k) * (- (IZR 2000000 / IZR 13256881))) by (rewrite mult_INR; field).
  rewrite E. generalize (k * k)%nat. intros n. induction n as [|n IH]; [simpl; rewrite Rmult_0_l; apply exp_0|]. rewrite S_INR, Rmult_plus_distr_r, Rmult_1_l, exp_plus, IH. simpl. ring.
Qed.
Lemma tt_range : 0 <= tt <= 1.
Proof. unfold tt. split; [left; apply exp_pos|]. rewrite <- exp_0. left. apply exp_increasing. lra. Qed.
Lemma pow_range n : 0 <= tt ^ n <= 1.
Proof. assert (T := tt_range). split; [apply pow_le; lra|]. rewrite <- (pow1 n). apply pow_incr. lra. Qed.
Definition zt : Z * Z := (1116296761480595227306277627994623, 56)%Z.
Definition zt2 : Z * Z := (959974742309858631506924300161424, 114)%Z.
(** (t^(k*k), t^(2k+1)) *)
Fixpoint chain (k : nat) : (Z * Z) * (Z * Z) := match k with O => ((w, 0)%Z, zt) | S j => let '(p, u) := chain j in (fmulp p u, fmulp u zt2) end.
Lemma zt_ok : nr tt zt.
Proof.
  assert (E : zt = (zalt 2000000 13256881 (2 * 12), 4 * Z.of_nat 12 + 8)%Z) by (vm_compute; reflexivity). rewrite E. clear E.
  refine (exp_ok 2000000 13256881 12 _ _ _ _); [lia|lia|lia|]. vm_compute. discriminate.
Qed.
Lemma zt2_ok : nr (tt ^ 2) zt2.
Proof.
  replace (tt ^ 2) with (tt * tt) by ring. assert (E : zt2 = fmulp zt zt) by (vm_compute; reflexivity). rewrite E. apply fmulp_ok; try apply tt_range; try apply zt_ok; discriminate.
Qed.
Lemma chain_ok k : (k < 40)%nat -> nr (tt ^ (k * k)) (fst (chain k)) /\ nr (tt ^ (2 * k + 1)) (snd (chain k)) /\ (0 <= snd (fst (chain k)) <= 58 * Z.of_nat (k * k) + 58 * Z.of_nat k)%Z /\ (0 <= snd (snd (chain k)) <= 116 * Z.of_nat k + 56)%Z.
Proof.
  intros Hk. induction k as [|k IH].
  - split; [|split; [|split]]; cbn [chain fst snd]; try (cbn; lia); [|cbn [Nat.mul Nat.add]; rewrite pow_1; exact zt_ok]. unfold nr. cbn [Nat.mul pow fst snd]. rewrite Rmult_1_l, Rminus_diag_eq, Rabs_R0 by reflexivity. lra.
  - destruct IH as (A & B & C & D); [lia|]. cbn [chain]. destruct (chain k) as [p u]. cbn [fst snd] in *. assert (E2 : snd zt2 = 114%Z) by reflexivity.
    assert (W : (1000000000000000 <= w)%Z) by (vm_compute; discriminate).
    split; [|split; [|split]].
    + replace (S k * S k)%nat with (k * k + (2 * k + 1))%nat by lia. rewrite pow_add. apply fmulp_ok; try apply pow_range; try assumption; try lia. nia.
    + replace (2 * S k + 1)%nat with (2 * k + 1 + 2)%nat by lia. rewrite pow_add. apply fmulp_ok; try apply pow_range; try assumption; try (rewrite E2); try lia. exact zt2_ok.
    + unfold fmulp. cbn [snd]. nia.
    + unfold fmulp. cbn [snd]. rewrite E2. lia.
Qed.
Lemma rho_pos s c x : 0 < rho s c x. Proof. apply exp_pos. Qed.
Lemma tt_half n : (6 <= n)%nat -> tt ^ n <= 1 / 2.
Proof.
  intros Hn. replace n with (6 + (n - 6))%nat by lia. rewrite pow_add. assert (A := pow_range (n - 6)).
  assert (B : tt ^ 6 <= 1 / 2). { assert (G := zt_ok). unfold nr in G. apply ab in G. assert (T := tt_range). assert (H : tt <= 87 / 100). { assert (W := w_pos). apply (Rmult_le_reg_r (IZR w)); [exact W|]. assert (IZR (fst zt) + 56 <= 87 / 100 * IZR w); [|change (IZR (snd zt)) with 56 in G; lra]. assert (Z : (100 * (fst zt + 56) <= 87 * w)%Z) by (vm_compute; discriminate). apply IZR_le in Z. rewrite !mult_IZR, plus_IZR in Z. lra. }
    eapply Rle_trans; [apply (pow_incr tt (87 / 100)); lra|]. lra. }
  assert (C := pow_range 6). assert (tt ^ 6 * tt ^ (n - 6) <= 1 / 2 * 1) by (apply Rmult_le_compat; lra). lra.
Qed.
Lemma tail_le m : sum_f_R0 (fun k => rho smax 0 (INR k)) (18 + m) <= sum_f_R0 (fun k => rho smax 0 (INR k)) 18 + 2 * rho smax 0 (INR 19) * (1 - (1 / 2) ^ m).
Proof.
  assert (D : forall j, rho smax 0 (INR (19 + j)) <= rho smax 0 (INR 19) * (1 / 2) ^ j).
  { induction j as [|j IH]; [rewrite Nat.add_0_r; simpl pow; lra|]. assert (E : rho smax 0 (INR (19 + S j)) = rho smax 0 (INR (19 + j)) * tt ^ (2 * (19 + j) + 1)) by (rewrite !rho_pow, <- pow_add; f_equal; lia).
    rewrite E. change ((1 / 2) ^ S j) with (1 / 2 * (1 / 2) ^ j). assert (H := tt_half (2 * (19 + j) + 1) ltac:(lia)). assert (P := rho_pos smax 0 (INR (19 + j))). assert (Q := pow_range (2 * (19 + j) + 1)).
    assert (rho smax 0 (INR (19 + j)) * tt ^ (2 * (19 + j) + 1) <= (rho smax 0 (INR 19) * (1 / 2) ^ j) * (1 / 2)) by (apply Rmult_le_compat; lra). lra. }
  induction m as [|m IH]; [rewrite Nat.add_0_r; simpl pow; lra|]. replace (18 + S m)%nat with (S (18 + m)) by lia. change (sum_f_R0 (fun k => rho smax 0 (INR k)) (S (18 + m))) with (sum_f_R0 (fun k => rho smax 0 (INR k)) (18 + m) + rho smax 0 (INR (S (18 + m)))). assert (G := D m). change (19 + m)%nat with (S (18 + m)) in G. change ((1 / 2) ^ S m) with (1 / 2 * (1 / 2) ^ m). lra.
Qed.
Definition part (n : nat) : R := sum_f_R0 (fun k => rho smax 0 (INR k)) n.
Lemma part_grow n m : (n <= m)%nat -> part n <= part m.
Proof. intros H. induction H as [|m H IH]; [lra|]. unfold part in *. cbn [sum_f_R0]. assert (P := rho_pos smax 0 (INR (S m))). lra. Qed.
Lemma part_cv : exists S, infinite_sum (fun k => rho smax 0 (INR k)) S /\ part 18 <= S <= part 18 + 2 * rho smax 0 (INR 19).
Proof.
  assert (G : Un_growing part) by (intros n; apply part_grow; lia).
  assert (B : forall n, part n <= part 18 + 2 * rho smax 0 (INR 19)).
  { intros n. eapply Rle_trans; [apply (part_grow n (18 + n)); lia|]. assert (T := tail_le n). assert (P := rho_pos smax 0 (INR 19)). assert (Q : 0 <= (1 / 2) ^ n) by (apply pow_le; lra). fold (part 18) (part (18 + n)) in T.
    assert (2 * rho smax 0 (INR 19) * (1 - (1 / 2) ^ n) <= 2 * rho smax 0 (INR 19) * 1) by (apply Rmult_le_compat_l; lra). lra. }
  assert (HB : bound (EUn part)) by (exists (part 18 + 2 * rho smax 0 (INR 19)); intros x [n ->]; apply B).
  assert (HE : exists x, EUn part x) by (exists (part 0); exists 0%nat; reflexivity).
  destruct (completeness (EUn part) HB HE) as [S HS]. exists S. assert (CV := Un_cv_crit_lub part G S HS). split; [exact CV|]. destruct HS as [U L]. split; [apply U; exists 18%nat; reflexivity|apply L; intros x [n ->]; apply B].
Qed.
(** what has to be computed: with s the value and e the error of the sum, rs those of the weights, (u, v) those of weight 19 *)
Definition check (s e u v : Z) (rs : nat -> Z * Z) (k : nat) : bool :=
  let '(r, f) := rs k in ((nth k pdt 0 * (s + e + 2 * (u + v)) <=? 2 ^ 72 * (r - f)) && (2 ^ 72 * (r + f) <? (nth k pdt 0 + 1) * (s - e)))%Z.
Definition check0 (s e u v : Z) (rs : nat -> Z * Z) : bool :=
  let '(r, f) := rs 0%nat in (((nth 0 pdt 0 - 9) * (s + e + 2 * (u + v)) <=? 2 ^ 72 * (r - f)) && (2 ^ 72 * (r + f) <=? nth 0 pdt 0 * (s - e)))%Z.
Definition check_all (s e u v : Z) (rs : nat -> Z * Z) : bool :=
  ((w <=? s - e) && (s + e + 2 * (u + v) <=? 3 * w) && check0 s e u v rs && forallb (check s e u v rs) (seq 1 18))%Z.
Lemma table_core s e u v rs : nr (part 18) (s, e) -> nr (rho smax 0 (INR 19)) (u, v) -> (forall k, (k < 19)%nat -> nr (rho smax 0 (INR k)) (rs k)) -> check_all s e u v rs = true ->
  exists S, infinite_sum (fun k => rho smax 0 (INR k)) S /\ 1 <= S <= 3 /\
  (IZR (nth 0 pdt 0%Z) - 9 <= 2 ^ 72 * (rho smax 0 0 / S) <= IZR (nth 0 pdt 0%Z)) /\
  forall k, (1 <= k < 19)%nat -> IZR (nth k pdt 0%Z) <= 2 ^ 72 * (rho smax 0 (INR k) / S) < IZR (nth k pdt 0%Z) + 1.
Proof.
  intros Z K19 KS CA. unfold check_all in CA. apply andb_true_iff in CA. destruct CA as [CA C1]. apply andb_true_iff in CA. destruct CA as [CA C0]. apply andb_true_iff in CA. destruct CA as [N1 N2].
  apply Z.leb_le in N1. apply Z.leb_le in N2.
  destruct part_cv as (S & CV & L & U). exists S. split; [exact CV|]. assert (W := w_pos). unfold nr in Z, K19. cbn [fst snd] in Z, K19.
  assert (S1 : 1 <= S <= 3).
  { apply IZR_le in N1. apply IZR_le in N2. rewrite minus_IZR in N1. rewrite !plus_IZR, !mult_IZR, plus_IZR in N2. apply ab in Z. apply ab in K19. split; apply (Rmult_le_reg_r (IZR w)); try exact W.
    - assert (part 18 * IZR w <= S * IZR w) by (apply Rmult_le_compat_r; lra). lra.
    - assert (S * IZR w <= (part 18 + 2 * rho smax 0 (INR 19)) * IZR w) by (apply Rmult_le_compat_r; lra). lra. }
  split; [exact S1|]. clear N1 N2.
  assert (P : forall a b c, 0 < c -> a * S <= b * c -> a <= c * (b / S)) by (intros a b c Hc H; apply (Rmult_le_reg_r S); [lra|]; replace (c * (b / S) * S) with (b * c) by (field; lra); exact H).
  assert (P' : forall a b c, 0 < c -> b * c <= a * S -> c * (b / S) <= a) by (intros a b c Hc H; apply (Rmult_le_reg_r S); [lra|]; replace (c * (b / S) * S) with (b * c) by (field; lra); exact H).
  assert (P'' : forall a b c, 0 < c -> b * c < a * S -> c * (b / S) < a) by (intros a b c Hc H; apply (Rmult_lt_reg_r S); [lra|]; replace (c * (b / S) * S) with (b * c) by (field; lra); exact H).
  assert (H72 : 0 < 2 ^ 72) by (apply pow_lt; lra).
  assert (E72 : 2 ^ 72 = IZR (2 ^ 72)) by (change (2 ^ 72)%Z with (2 ^ Z.of_nat 72)%Z; rewrite <- pow_IZR; reflexivity).
  apply ab in Z. apply ab in K19. set (c := 2 ^ 72) in *.
  assert (Low : forall n r f x, (0 <= n)%Z -> Rabs (x * IZR w - IZR r) <= IZR f -> (n * (s + e + 2 * (u + v)) <= 2 ^ 72 * (r - f))%Z -> IZR n * S <= x * c).
  { intros n r f x Hn Hx H. apply IZR_le in H. apply (IZR_le 0) in Hn. rewrite !mult_IZR, !plus_IZR, mult_IZR, plus_IZR, minus_IZR in H. rewrite <- E72 in H. apply ab in Hx.
    apply (Rmult_le_reg_r (IZR w)); [exact W|]. assert (S * IZR w <= IZR s + IZR e + 2 * (IZR u + IZR v)).
    { assert (S * IZR w <= (part 18 + 2 * rho smax 0 (INR 19)) * IZR w) by (apply Rmult_le_compat_r; lra). lra. }
    assert (IZR n * (S * IZR w) <= IZR n * (IZR s + IZR e + 2 * (IZR u + IZR v))) by (apply Rmult_le_compat_l; assumption).
    assert (c * (IZR r - IZR f) <= c * (x * IZR w)) by (apply Rmult_le_compat_l; lra). lra. }
  assert (Up : forall n r f x, (0 <= n)%Z -> Rabs (x * IZR w - IZR r) <= IZR f -> x * IZR w * c <= IZR (2 ^ 72 * (r + f)) /\ IZR (n * (s - e)) <= IZR n * S * IZR w).
  { intros n r f x Hn Hx. apply (IZR_le 0) in Hn. rewrite !mult_IZR, plus_IZR, minus_IZR, <- E72. apply ab in Hx. split; [rewrite (Rmult_comm c); apply Rmult_le_compat_r; lra|]. rewrite Rmult_assoc. apply Rmult_le_compat_l; [exact Hn|].
    assert (part 18 * IZR w <= S * IZR w) by (apply Rmult_le_compat_r; lra). lra. }
  split.
  - replace (rho smax 0 0) with (rho smax 0 (INR 0)) by reflexivity. assert (K := KS 0%nat ltac:(lia)). unfold nr in K. unfold check0 in C0.
    destruct (rs 0%nat) as [r f]. cbn [fst snd] in K. apply andb_true_iff in C0. destruct C0 as [H1 H2]. apply Z.leb_le in H1. apply Z.leb_le in H2.
    rewrite <- minus_IZR. split; [apply P; [exact H72|]; apply (Low _ r f); [vm_compute; discriminate|exact K|exact H1]|].
    apply P'; [exact H72|]. destruct (Up (nth 0 pdt 0%Z) r f _ ltac:(vm_compute; discriminate) K) as [U1 U2]. apply IZR_le in H2. apply (Rmult_le_reg_r (IZR w)); [exact W|]. lra.
  - intros k Hk. assert (Ck : check s e u v rs k = true) by (rewrite forallb_forall in C1; apply C1, in_seq; lia). assert (K := KS k ltac:(lia)). unfold nr in K. unfold check in Ck.
    assert (N0 : (0 <= nth k pdt 0)%Z). { assert (F : Forall (fun x => 0 <= x)%Z pdt) by (repeat constructor; discriminate). rewrite Forall_forall in F. apply F, nth_In. cbn. lia. }
    destruct (rs k) as [r f]. cbn [fst snd] in K. apply andb_true_iff in Ck. destruct Ck as [H1 H2]. apply Z.leb_le in H1. apply Z.ltb_lt in H2.
    split; [apply P; [exact H72|]; apply (Low _ r f); [exact N0|exact K|exact H1]|].
    rewrite <- plus_IZR. apply P''; [exact H72|]. destruct (Up (nth k pdt 0%Z + 1)%Z r f _ ltac:(lia) K) as [U1 U2]. apply IZR_lt in H2. apply (Rmult_lt_reg_r (IZR w)); [exact W|]. lra.
Qed.
(** the computed weights *)
Definition ws : list (Z * Z) := [ (1298074214633706907132624082305024, 0); (1116296761480595227306277627994623, 58); (709937456182291295523566401698762, 232); (333903367379998588195582849550072, 522); (116139991849614024859578356806991, 928); (29874666586004558690894267518701, 1450); (5683091212564928014770679963056, 2088); (799514729793876299563198907279, 2842); (83181853971114721154396724393, 3712); (6400162571561948003224665098, 4698); (364177993845673158976658953, 5800); (15324865661554721692120537, 7018); (476913851933910170278972, 8352); (10975984389916518769028, 9802); (186813091838620720306, 11368); (2351426559896777497, 13050); (21888490584475529, 14848); (150681693330090, 16762); (767123794324, 18792); (2888222845, 20938) ]%Z.
Lemma ws_eq : map (fun k => fst (chain k)) (seq 0 20) = ws.
Proof. vm_compute. reflexivity. Qed.
Lemma ws_nth k : (k < 20)%nat -> fst (chain k) = nth k ws (0, 0)%Z.
Proof. intros Hk. rewrite <- ws_eq. rewrite (nth_indep _ _ (fst (chain 20))) by (rewrite map_length, seq_length; exact Hk). rewrite (map_nth (fun k => fst (chain k))). rewrite seq_nth by exact Hk. reflexivity. Qed.
Definition wsum : Z * Z := fold_left (fun p q => (fst p + fst q, snd p + snd q)%Z) (firstn 19 ws) (0, 0)%Z.
Lemma wsum_ok : nr (part 18) wsum.
Proof.
  assert (G : forall n, (n < 20)%nat -> nr (part n) (fold_left (fun p q => (fst p + fst q, snd p + snd q)%Z) (firstn (S n) ws) (0, 0)%Z)).
  { induction n as [|n IH]; intros Hn.
    - assert (K := proj1 (chain_ok 0 ltac:(lia))). rewrite ws_nth in K by lia. rewrite <- rho_pow in K. exact K.
    - assert (E : firstn (S (S n)) ws = firstn (S n) ws ++ [nth (S n) ws (0, 0)%Z]).
      { assert (Hl : (S n < length ws)%nat) by exact Hn. revert Hl. generalize (S n) ws. clear. intros n l. revert l. induction n as [|n IH]; intros [|x l] H; cbn in *; try lia; [reflexivity|]. f_equal. apply IH. lia. }
      rewrite E, fold_left_app. specialize (IH ltac:(lia)). assert (K := proj1 (chain_ok (S n) ltac:(lia))). rewrite ws_nth in K by lia. rewrite <- rho_pow in K. cbn [fold_left].
      set (a := fold_left _ _ _) in *. set (b := nth (S n) ws (0, 0)%Z) in *. clearbody a b. unfold nr in *. cbn [fst snd]. rewrite !plus_IZR.
      change (part (S n)) with (part n + rho smax 0 (INR (S n))). apply ab in K. apply ab in IH. apply Rabs_le. lra. }
  exact (G 18%nat ltac:(lia)).
Qed.
Lemma wcheck : check_all (fst wsum) (snd wsum) (fst (nth 19 ws (0, 0)%Z)) (snd (nth 19 ws (0, 0)%Z)) (fun k => nth k ws (0, 0)%Z) = true.
Proof. vm_compute. reflexivity. Qed.
Lemma table_gauss : exists S, infinite_sum (fun k => rho smax 0 (INR k)) S /\ 1 <= S <= 3 /\
  (IZR (nth 0 pdt 0%Z) - 9 <= 2 ^ 72 * (rho smax 0 0 / S) <= IZR (nth 0 pdt 0%Z)) /\
  forall k, (1 <= k < 19)%nat -> IZR (nth k pdt 0%Z) <= 2 ^ 72 * (rho smax 0 (INR k) / S) < IZR (nth k pdt 0%Z) + 1.
Proof.
  apply (table_core (fst wsum) (snd wsum) (fst (nth 19 ws (0, 0)%Z)) (snd (nth 19 ws (0, 0)%Z)) (fun k => nth k ws (0, 0)%Z)).
  - rewrite <- surjective_pairing. exact wsum_ok.
  - rewrite <- surjective_pairing, rho_pow, <- ws_nth by lia. apply chain_ok. lia.
  - intros k Hk. cbv beta. rewrite rho_pow, <- ws_nth by lia. apply chain_ok. lia.
  - exact wcheck.
Qed.
