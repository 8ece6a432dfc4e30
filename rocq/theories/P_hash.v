(** P_hash.v -- the law of hash_to_point on uniformly random bytes. *)
From Verif Require Import Base Spec SpecG SpecH M_ff P_ff M_verify P_verify P_verifyx P_prob.
From Coq Require Import Reals Lra.
Open Scope R_scope.

Definition lwords (s : list Z) (m : nat) : list Z := map (word16 (stream s)) (seq 0 m).
Lemma lwords_cons a b s m : lwords (a :: b :: s) (S m) = (256 * a + b)%Z :: lwords s m.
Proof.
  unfold lwords. cbn [seq map]. f_equal. rewrite <- seq_shift, map_map. apply map_ext. intros i. unfold word16.
  replace (2 * S i)%nat with (S (S (2 * i))) by lia. replace (S (S (2 * i)) + 1)%nat with (S (S (2 * i + 1))) by lia. reflexivity.
Qed.

(** the first N accepted words are c modulo q *)
Fixpoint matches (c ws : list Z) : bool :=
  match c, ws with
  | [], _ => true
  | _ :: _, [] => false
  | x :: c', w :: ws' => if (w <? 61445)%Z then (w mod q =? x)%Z && matches c' ws' else matches c ws'
  end.
Fixpoint enough (n : nat) (ws : list Z) : bool :=
  match n, ws with
  | O, _ => true
  | S _, [] => false
  | S n', w :: ws' => if (w <? 61445)%Z then enough n' ws' else enough n ws'
  end.
Lemma enough_ok ws : forall n, enough n ws = Nat.leb n (length (keepw ws)).
Proof.
  induction ws as [|w ws IH]; intros [|n]; try reflexivity. unfold keepw in *. cbn [enough filter]. destruct (w <? 61445)%Z; rewrite IH; reflexivity.
Qed.
Lemma matches_ok ws : forall c, matches c ws = true <-> (length c <= length (keepw ws))%nat /\ firstn (length c) (modq (keepw ws)) = c.
Proof.
  induction ws as [|w ws IH]; intros [|x c].
  - cbn. split; auto.
  - cbn. split; [discriminate|intros [H _]; lia].
  - cbn. split; [split; [lia|reflexivity]|reflexivity].
  - cbn [matches]. unfold keepw in *. cbn [filter]. destruct (w <? 61445)%Z.
    + rewrite andb_true_iff, Z.eqb_eq, IH. cbn [length modq map firstn]. split.
      * intros (E & L & F). split; [lia|]. f_equal; [exact E|exact F].
      * intros (L & F). injection F as E F. split; [exact E|]. split; [lia|exact F].
    + rewrite IH. reflexivity.
Qed.

(** ** one word *)
Lemma avg2 f : avg 2 f = rsum 256 (fun a => rsum 256 (fun b => f [Z.of_nat a; Z.of_nat b]) / 256) / 256.
Proof. reflexivity. Qed.
Lemma avg2_word w : (0 <= w < 65536)%Z -> avg 2 (fun u => P_prob.ind (256 * nth 0 u 0 + nth 1 u 0 =? w)%Z) = / 65536.
Proof.
  intros Hw. rewrite avg2. cbn [nth].
  assert (Da := Z.div_mod w 256 ltac:(lia)). assert (Rb := Z.mod_pos_bound w 256 ltac:(lia)).
  assert (Ra : (0 <= w / 256 < 256)%Z) by (split; [apply Z.div_pos; lia|apply Z.div_lt_upper_bound; lia]).
  rewrite (rsum_one 256 (Z.to_nat (w / 256))); [|lia|].
  - rewrite (rsum_one 256 (Z.to_nat (w mod 256))); [|lia|].
    + rewrite !Z2Nat.id by lia. replace (256 * (w / 256) + w mod 256 =? w)%Z with true by (symmetry; apply Z.eqb_eq; lia). cbn [P_prob.ind]. field.
    + intros i Hi Ni. rewrite Z2Nat.id by lia. replace (256 * (w / 256) + Z.of_nat i =? w)%Z with false; [reflexivity|]. symmetry. apply Z.eqb_neq. lia.
  - intros i Hi Ni. rewrite (rsum_ext 256 _ (fun _ => 0)); [rewrite rsum_const; field|].
    intros j Hj. replace (256 * Z.of_nat i + Z.of_nat j =? w)%Z with false; [reflexivity|]. symmetry. apply Z.eqb_neq. lia.
Qed.
Lemma avg2_accept : avg 2 (fun u => P_prob.ind (256 * nth 0 u 0 + nth 1 u 0 <? 61445)%Z) = 61445 / 65536.
Proof.
  rewrite avg2. cbn [nth].
  rewrite (rsum_ext 256 _ (fun a => rsum 256 (fun b => / 256 * P_prob.ind (256 * Z.of_nat a + Z.of_nat b <? 61445)%Z))).
  2:{ intros a _. rewrite rsum_scal. field. }
  rewrite rsum_swap.
  transitivity (avg 2 (fun u => P_prob.ind (le_value 256 u <? 61445)%Z)).
  - rewrite avg2. f_equal. apply rsum_ext. intros b _. rewrite rsum_scal. unfold Rdiv. rewrite Rmult_comm. f_equal. apply rsum_ext. intros a _. f_equal.
    f_equal. unfold le_value. cbn [fold_right]. lia.
  - rewrite avg_le by (cbn; lia). cbn [pow]. field.
Qed.
Lemma avg2_residue r : canon r -> avg 2 (fun u => let w := (256 * nth 0 u 0 + nth 1 u 0)%Z in P_prob.ind ((w <? 61445)%Z && (w mod q =? r)%Z)) = 5 / 65536.
Proof.
  intros Hr. destruct (residue_words r Hr) as [Hn Hi]. cbv zeta in Hn, Hi. unfold canon, q in Hr.
  set (W := fun u : list Z => (256 * nth 0 u 0 + nth 1 u 0)%Z).
  rewrite (avg_ext 2 _ (fun u => P_prob.ind (W u =? r)%Z + (P_prob.ind (W u =? r + q)%Z + (P_prob.ind (W u =? r + 2 * q)%Z + (P_prob.ind (W u =? r + 3 * q)%Z + P_prob.ind (W u =? r + 4 * q)%Z))))).
  - unfold W. rewrite !avg_plus. rewrite !avg2_word by (unfold q; lia). lra.
  - intros u Lu Bu. cbv zeta. fold (W u).
    assert (HW : (0 <= W u < 65536)%Z).
    { unfold W. assert (B0 := Forall_nth_lt _ u 0%Z 0 Bu ltac:(lia)). assert (B1 := Forall_nth_lt _ u 0%Z 1 Bu ltac:(lia)). unfold byte in *. lia. }
    assert (X := Hi (W u)). rewrite kq_val, ff_correct in X by exact HW. cbn [In] in X. unfold q in *.
    destruct ((W u <? 61445)%Z && (W u mod 12289 =? r)%Z) eqn:E.
    + apply andb_true_iff in E. destruct E as [E1 E2]. apply Z.eqb_eq in E2. destruct X as [_ X]. specialize (X (conj HW (conj E1 E2))).
      cbn [P_prob.ind]. destruct X as [X|[X|[X|[X|[X|[]]]]]]; rewrite <- X; repeat match goal with |- context [P_prob.ind (?a =? ?b)%Z] => destruct (Z.eqb_spec a b); cbn [P_prob.ind]; try lia end; lra.
    + assert (N : ~ (r = W u \/ r + 12289 = W u \/ r + 2 * 12289 = W u \/ r + 3 * 12289 = W u \/ r + 4 * 12289 = W u \/ False)%Z).
      { intros Y. apply X in Y. destruct Y as (_ & Y1 & Y2). rewrite Y1, Y2, Z.eqb_refl in E. discriminate. }
      cbn [P_prob.ind]. repeat match goal with |- context [P_prob.ind (?a =? ?b)%Z] => destruct (Z.eqb_spec a b); cbn [P_prob.ind]; try (exfalso; apply N; lia) end; lra.
Qed.

(** ** m words *)
Lemma avg_words (m : nat) f : avg (2 * S m) f = avg 2 (fun u => avg (2 * m) (fun s => f (u ++ s))).
Proof. replace (2 * S m)%nat with (2 + 2 * m)%nat by lia. apply avg_split. Qed.
Lemma two u : length u = 2%nat -> u = [nth 0 u 0%Z; nth 1 u 0%Z].
Proof. destruct u as [|a [|b [|c u]]]; intros H; try discriminate H. reflexivity. Qed.

Definition pe (m n : nat) : R := avg (2 * m) (fun s => P_prob.ind (enough n (lwords s m))).
Definition pm (m : nat) (c : list Z) : R := avg (2 * m) (fun s => P_prob.ind (matches c (lwords s m))).
Lemma pe_0 m : pe m 0 = 1.
Proof. unfold pe. rewrite (avg_ext _ _ (fun _ => 1)); [apply avg_const|]. intros s _ _. destruct (lwords s m); reflexivity. Qed.
Lemma pe_S m n : pe (S m) (S n) = 4091 / 65536 * pe m (S n) + 61445 / 65536 * pe m n.
Proof.
  unfold pe at 1. rewrite avg_words.
  rewrite (avg_ext 2 _ (fun u => pe m (S n) + (pe m n - pe m (S n)) * P_prob.ind (256 * nth 0 u 0 + nth 1 u 0 <? 61445)%Z)).
  - rewrite avg_plus, avg_const, avg_scal, avg2_accept. field.
  - intros u Lu _. rewrite (two u Lu). cbn [nth app]. destruct (256 * nth 0 u 0 + nth 1 u 0 <? 61445)%Z eqn:E; cbn [P_prob.ind].
    + transitivity (pe m n); [|ring]. apply avg_ext. intros s _ _. rewrite lwords_cons. cbn [enough]. rewrite E. reflexivity.
    + transitivity (pe m (S n)); [|ring]. apply avg_ext. intros s _ _. rewrite lwords_cons. cbn [enough]. rewrite E. reflexivity.
Qed.
Lemma pm_0 m : pm m [] = 1.
Proof. unfold pm. rewrite (avg_ext _ _ (fun _ => 1)); [apply avg_const|]. intros s _ _. destruct (lwords s m); reflexivity. Qed.
Lemma pm_S m x c : canon x -> pm (S m) (x :: c) = 4091 / 65536 * pm m (x :: c) + 5 / 65536 * pm m c.
Proof.
  intros Hx. unfold pm at 1. rewrite avg_words.
  rewrite (avg_ext 2 _ (fun u => (pm m (x :: c) + (- pm m (x :: c)) * P_prob.ind (256 * nth 0 u 0 + nth 1 u 0 <? 61445)%Z) +
     pm m c * P_prob.ind ((256 * nth 0 u 0 + nth 1 u 0 <? 61445)%Z && ((256 * nth 0 u 0 + nth 1 u 0) mod q =? x)%Z))).
  - assert (R5 := avg2_residue x Hx). cbv zeta in R5. rewrite !avg_plus, avg_const, !avg_scal, avg2_accept, R5. field.
  - intros u Lu _. rewrite (two u Lu). cbn [nth app]. set (w := (256 * nth 0 u 0 + nth 1 u 0)%Z). destruct (w <? 61445)%Z eqn:E; cbn [P_prob.ind andb].
    + destruct (w mod q =? x)%Z eqn:E2; cbn [P_prob.ind].
      * transitivity (pm m c); [|ring]. apply avg_ext. intros s _ _. rewrite lwords_cons. fold w. cbn [matches]. rewrite E, E2. reflexivity.
      * transitivity 0; [|ring]. rewrite (avg_ext _ _ (fun _ => 0)); [apply avg_const|]. intros s _ _. rewrite lwords_cons. fold w. cbn [matches]. rewrite E, E2. reflexivity.
    + transitivity (pm m (x :: c)); [|ring]. apply avg_ext. intros s _ _. rewrite lwords_cons. fold w. cbn [matches]. rewrite E. reflexivity.
Qed.
Lemma pm_pe m : forall c, Forall canon c -> pm m c * IZR q ^ length c = pe m (length c).
Proof.
  induction m as [|m IH]; intros [|x c] Hc.
  - rewrite pm_0, pe_0. cbn. ring.
  - unfold pm, pe. cbn. ring.
  - rewrite pm_0, pe_0. cbn. ring.
  - cbn [length]. assert (Hx := Forall_inv Hc). assert (Ht := Forall_inv_tail Hc). rewrite pm_S by exact Hx. rewrite pe_S. rewrite <- (IH c Ht).
    assert (I := IH (x :: c) Hc). cbn [length] in I. rewrite <- I. cbn [pow]. unfold q. field.
Qed.
Lemma pe_low m : forall n, 1 - 16 ^ n / 8 ^ m <= pe m n.
Proof.
  induction m as [|m IH]; intros [|n].
  - rewrite pe_0. assert (0 < 16 ^ 0 / 8 ^ 0) by (cbn; lra). lra.
  - assert (E : pe 0 (S n) = 0) by (unfold pe; cbn; reflexivity). rewrite E. assert (1 <= 16 ^ S n) by (apply pow_R1_Rle; lra). cbn [pow] in *. lra.
  - rewrite pe_0. assert (0 < 8 ^ S m) by (apply pow_lt; lra). assert (0 < 16 ^ 0 / 8 ^ S m) by (apply Rdiv_lt_0_compat; [cbn; lra|assumption]). lra.
  - rewrite pe_S. assert (I1 := IH (S n)). assert (I0 := IH n). assert (P8 : 0 < 8 ^ m) by (apply pow_lt; lra). assert (P16 : 0 < 16 ^ n) by (apply pow_lt; lra).
    assert (X : 0 < 16 ^ n / 8 ^ m) by (apply Rdiv_lt_0_compat; assumption).
    assert (E1 : 16 ^ S n / 8 ^ m = 16 * (16 ^ n / 8 ^ m)) by (cbn [pow]; field; lra).
    assert (E2 : 16 ^ S n / 8 ^ S m = 2 * (16 ^ n / 8 ^ m)) by (cbn [pow]; field; lra).
    rewrite E1 in I1. rewrite E2. lra.
Qed.

(** ** hash_to_point *)
Lemma stream_bytes s : bytes s -> byte_stream (stream s).
Proof.
  intros H i. unfold stream. destruct (Nat.lt_ge_cases i (length s)) as [L|L]; [apply (Forall_nth_lt _ s 0%Z i H L)|].
  rewrite nth_overflow by exact L. unfold byte. lia.
Qed.
Lemma accepted_lwords s m : accepted_words (stream s) m = keepw (lwords s m).
Proof. reflexivity. Qed.

Theorem hash_law lg salt msg poly k c : length poly = (2 ^ lg)%nat -> length c = (2 ^ lg)%nat -> Forall canon c ->
  prob (136 * k) (fun w => hashes_to (hash_to_point k (fun _ => stream w) lg salt msg poly) c) =
  prob (136 * k) (fun w => done (hash_to_point k (fun _ => stream w) lg salt msg poly)) / IZR q ^ 2 ^ lg /\
  1 - 16 ^ 2 ^ lg / 8 ^ (68 * k) <= prob (136 * k) (fun w => done (hash_to_point k (fun _ => stream w) lg salt msg poly)).
Proof.
  intros Lp Lc Hc.
  assert (E1 : prob (136 * k) (fun w => hashes_to (hash_to_point k (fun _ => stream w) lg salt msg poly) c) = pm (68 * k) c).
  { rewrite prob_avg. unfold pm. replace (2 * (68 * k))%nat with (136 * k)%nat by lia. apply avg_ext. intros s _ Bs. f_equal.
    rewrite hash_ok by (try exact Lp; apply stream_bytes; exact Bs). rewrite accepted_lwords. rewrite <- Lc.
    destruct (Nat.leb (length c) (length (keepw (lwords s (68 * k))))) eqn:E.
    - cbn [hashes_to]. apply eq_true_iff_eq. rewrite matches_ok. apply Nat.leb_le in E.
      destruct (list_eq_dec Z.eq_dec _ _) as [e|n]; [split; auto|]. split; [discriminate|]. intros [_ X]. exfalso. auto.
    - cbn [hashes_to]. symmetry. apply not_true_is_false. intros X. apply matches_ok in X. destruct X as [X _]. apply Nat.leb_le in X. congruence. }
  assert (E2 : prob (136 * k) (fun w => done (hash_to_point k (fun _ => stream w) lg salt msg poly)) = pe (68 * k) (2 ^ lg)).
  { rewrite prob_avg. unfold pe. replace (2 * (68 * k))%nat with (136 * k)%nat by lia. apply avg_ext. intros s _ Bs. f_equal.
    rewrite hash_ok by (try exact Lp; apply stream_bytes; exact Bs). rewrite accepted_lwords, enough_ok.
    destruct (Nat.leb _ _); reflexivity. }
  rewrite E1, E2. split; [|apply pe_low].
  assert (X := pm_pe (68 * k) c Hc). rewrite Lc in X. rewrite <- X. field. apply pow_nonzero. unfold q. lra.
Qed.
