(** P_decomp.v -- the language accepted by decompress_sig *)
From Verif Require Import Base Spec M_ff M_codec M_sig P_codec P_nttx P_sig P_comp.
Open Scope Z_scope.

(** ** pieces *)
Lemma sign_low sgn low : length low = 7%nat ->
  shr (bv (sgn :: low)) 7 = b2z sgn /\ bv (sgn :: low) .& 127 = bv low.
Proof.
  intros L. pose proof (bv_range low) as R. rewrite bv_cons, L in *. change (2 ^ Z.of_nat 7) with 128 in *.
  unfold shr. rewrite Z.shiftr_div_pow2 by lia. change 127 with (Z.ones 7). rewrite Z.land_ones by lia. change (2 ^ 7) with 128.
  rewrite (Z.add_comm _ (bv low)), Z.div_add, Z.mod_add, Z.div_small, Z.mod_small by lia.
  destruct sgn; cbn [b2z]; lia.
Qed.

Lemma firstn_lead {A} (x : list A) n y : length x = n -> firstn n (x ++ y) = x.
Proof. intros <-. rewrite firstn_app, Nat.sub_diag, firstn_all, firstn_O, app_nil_r. reflexivity. Qed.
Lemma skipn_lead {A} (x : list A) n y : length x = n -> skipn n (x ++ y) = y.
Proof. intros <-. rewrite skipn_app, Nat.sub_diag, skipn_all. reflexivity. Qed.

Lemma fin (mem : list Z) i b rest : skipn i (bits_of mem) = b :: rest -> (8 <= length rest)%nat ->
  Z.of_nat i / 8 + 1 < Z.of_nat (length mem).
Proof.
  intros H L. pose proof (f_equal (@length _) H) as E. rewrite skipn_length, bits_of_length in E. cbn [length] in E.
  apply Z.lt_add_lt_sub_r. apply Z.div_lt_upper_bound; lia.
Qed.

Lemma ex8 mem i l rest : bytes mem -> skipn i (bits_of mem) = l ++ rest -> length l = 8%nat -> rest <> [] ->
  extract_8_contiguous_bits mem (Z.of_nat i) = Ok (bv l).
Proof.
  intros Hb E L R. rewrite extract8_ok; [|exact Hb|lia|].
  - rewrite Nat2Z.id, E, firstn_lead by exact L. reflexivity.
  - destruct l as [|b l]; [discriminate|]. apply (fin mem i b (l ++ rest)); [exact E|]. rewrite app_length.
    cbn [length] in L. destruct rest; [congruence|]. cbn [length]. lia.
Qed.

(** ** completeness: a codeword is read as its value *)
Lemma long_run_complete mem slen : bytes mem -> forall m fuel i chunk b rest,
  skipn i (bits_of mem) = repeat false (8 * m) ++ chunk ++ b :: rest ->
  length chunk = 8%nat -> In true chunk ->
  Z.of_nat (i + 8 * m + 8) <= slen -> (m < fuel)%nat ->
  long_run fuel mem slen (Z.of_nat i) = Ok (Z.of_nat (i + 8 * m + 8)).
Proof.
  intros Hb. induction m as [|m IH]; intros fuel i chunk b rest E L Ht Hs Hf; (destruct fuel as [|fuel]; [lia|]); cbn [long_run];
  rewrite (proj2 (Z.ltb_lt _ _)) by lia; rewrite Z.min_l by lia; change (8 <? 8) with false; cbv beta iota.
  - cbn [Nat.mul repeat app] in E. rewrite (ex8 mem i chunk (b :: rest)); [|assumption|exact E|assumption|discriminate]. cbn [bind].
    destruct (clz8_bits chunk L) as [(k & Hk & -> & _) | (_ & ->)].
    + rewrite (proj2 (Z.ltb_lt _ _)) by lia. f_equal. lia.
    + apply repeat_spec in Ht. discriminate.
  - replace (8 * S m)%nat with (8 + 8 * m)%nat in E by lia. rewrite repeat_app, <- app_assoc in E.
    rewrite (ex8 mem i (repeat false 8) (repeat false (8 * m) ++ chunk ++ b :: rest)); [|assumption|exact E|reflexivity|].
    2: { destruct (repeat false (8 * m)), chunk; discriminate. }
    cbn [bind]. change (clz8 (bv (repeat false 8)) <? 8) with false. cbv iota.
    replace (Z.of_nat i + 8) with (Z.of_nat (i + 8)) by lia.
    rewrite (IH fuel (i + 8)%nat chunk b rest); try assumption; try lia.
    + f_equal. lia.
    + rewrite Nat.add_comm. rewrite <- skipn_skipn, E. apply skipn_lead. reflexivity.
Qed.

Lemma coeff_complete mem slen fuel i w c rest : bytes mem -> codeword w c ->
  skipn i (bits_of mem) = w ++ rest -> (8 <= length rest)%nat -> Z.of_nat (i + length w) <= slen ->
  (length w <= 8 * fuel)%nat ->
  decompress_coeff fuel mem slen (Z.of_nat i) = Ok (Some (c, Z.of_nat (i + length w))).
Proof.
  intros Hb Hc E Lr Hs Hf.
  assert (G : forall sgn v, ~ (sgn = true /\ v = 0) ->
    ((if b2z sgn =? 1 then - v else v) = signed sgn v) /\ (signed sgn v =? 0) && (b2z sgn =? 1) = false).
  { intros sgn v H. destruct sgn; cbn [b2z signed]; [|split; [reflexivity|apply andb_false_r]].
    split; [reflexivity|]. destruct (Z.eqb_spec (- v) 0); [|reflexivity]. exfalso. apply H. split; [reflexivity|lia]. }
  unfold decompress_coeff. destruct Hc as [sgn low k L Hk Hz | sgn low m chunk b L Lc Ht Hz].
  - rewrite (ex8 mem i (sgn :: low) ((repeat false k ++ [true]) ++ rest)); [|assumption|rewrite E; cbn [app]; rewrite <- !app_assoc; reflexivity|simpl; lia|].
    2: { destruct k; discriminate. }
    cbn [bind]. destruct (sign_low sgn low L) as [-> ->].
    assert (E8 : skipn (i + 8) (bits_of mem) = (repeat false k ++ true :: firstn (7 - k) rest) ++ skipn (7 - k) rest).
    { rewrite Nat.add_comm, <- skipn_skipn, E.
      change (sgn :: low ++ repeat false k ++ [true]) with ((sgn :: low) ++ repeat false k ++ [true]).
      rewrite <- app_assoc, skipn_lead by (simpl; lia). rewrite <- !app_assoc. cbn [app]. rewrite firstn_skipn. reflexivity. }
    assert (L8 : length (repeat false k ++ true :: firstn (7 - k) rest) = 8%nat).
    { rewrite app_length, repeat_length. cbn [length]. rewrite firstn_length. lia. }
    replace (Z.of_nat i + 8) with (Z.of_nat (i + 8)) by lia.
    rewrite (ex8 mem (i + 8) _ _ Hb E8 L8).
    2: { intros X. apply (f_equal (@length _)) in X. rewrite skipn_length in X. cbn [length] in X. lia. }
    cbn [bind]. rewrite clz8_first by exact L8. rewrite (proj2 (Z.ltb_lt _ _)) by lia. cbn [bind].
    destruct (G sgn (bv low + 128 * Z.of_nat k) Hz) as [-> ->]. do 3 f_equal.
    cbn [length]. rewrite !app_length, repeat_length, L. cbn [length]. lia.
  - assert (W : length (sgn :: low ++ repeat false (8 + 8 * m) ++ chunk ++ [b]) = (25 + 8 * m)%nat).
    { cbn [length]. rewrite !app_length, repeat_length, L, Lc. cbn [length]. lia. }
    rewrite W in *.
    assert (E0 : skipn i (bits_of mem) = (sgn :: low) ++ repeat false 8 ++ repeat false (8 * m) ++ chunk ++ b :: rest).
    { rewrite E. cbn [app]. rewrite repeat_app, <- !app_assoc. reflexivity. }
    rewrite (ex8 mem i (sgn :: low) (repeat false 8 ++ repeat false (8 * m) ++ chunk ++ b :: rest)); [|assumption|exact E0|simpl; lia|discriminate].
    cbn [bind]. destruct (sign_low sgn low L) as [-> ->].
    assert (E8 : skipn (i + 8) (bits_of mem) = repeat false 8 ++ repeat false (8 * m) ++ chunk ++ b :: rest).
    { rewrite Nat.add_comm, <- skipn_skipn, E0, skipn_lead by (simpl; lia). reflexivity. }
    replace (Z.of_nat i + 8) with (Z.of_nat (i + 8)) by lia.
    rewrite (ex8 mem (i + 8) _ _ Hb E8); [|reflexivity|destruct (repeat false (8 * m)), chunk; discriminate].
    cbn [bind]. change (clz8 (bv (repeat false 8))) with 8. change (8 <? 8) with false. cbv iota.
    replace (Z.of_nat (i + 8) + 8) with (Z.of_nat (i + 16)) by lia.
    rewrite (long_run_complete mem slen Hb m fuel (i + 16) chunk b rest); try assumption; try lia.
    + cbn [bind]. destruct (G sgn (bv low) Hz) as [-> ->]. do 3 f_equal. lia.
    + replace (i + 16)%nat with (8 + (i + 8))%nat by lia. rewrite <- skipn_skipn, E8. apply skipn_lead. reflexivity.
Qed.

Lemma codeword_length w c : codeword w c -> (9 <= length w)%nat.
Proof. intros []; cbn [length]; rewrite !app_length, repeat_length; cbn [length]; lia. Qed.

Lemma firstn_upd_S (p : list Z) ci c : (ci < length p)%nat -> firstn (S ci) (upd p ci c) = firstn ci p ++ [c].
Proof.
  revert ci. induction p as [|x p IH]; intros [|ci] H; simpl in H; try lia; [reflexivity|].
  cbn [upd firstn app]. f_equal. apply IH. lia.
Qed.

Lemma loop_complete mem slen fuel : bytes mem -> forall ws cs, Forall2 codeword ws cs -> forall i ci p rest,
  skipn i (bits_of mem) = concat ws ++ rest -> (8 <= length rest)%nat -> Z.of_nat (i + length (concat ws)) <= slen ->
  (length (concat ws) <= 8 * fuel)%nat -> length p = (ci + length cs)%nat ->
  decompress_loop (length cs) fuel mem slen (Z.of_nat i) ci p =
  Ok (false, Z.of_nat (i + length (concat ws)), (ci + length cs)%nat, firstn ci p ++ cs).
Proof.
  intros Hb ws cs F. induction F as [|w c ws cs Hw F IH]; intros i ci p rest E Lr Hs Hf Lp.
  - cbn [concat length decompress_loop] in *. rewrite Nat.add_0_r, app_nil_r, firstn_all2 by lia. do 4 f_equal. lia.
  - cbn [concat length decompress_loop] in *. rewrite app_length in *. rewrite <- app_assoc in E.
    pose proof (codeword_length _ _ Hw).
    rewrite (proj2 (Z.ltb_lt _ _)) by lia.
    rewrite (coeff_complete mem slen fuel i w c (concat ws ++ rest)); try assumption; try lia; [|rewrite app_length; lia].
    cbn [bind]. rewrite wr_Ok by lia. cbn [bind].
    rewrite (IH (i + length w)%nat (S ci) (upd p ci c) rest); try assumption; try lia.
    + f_equal. f_equal; [f_equal; [f_equal|]; lia|]. rewrite firstn_upd_S by lia. rewrite <- app_assoc. reflexivity.
    + rewrite Nat.add_comm, <- skipn_skipn, E. apply skipn_lead. reflexivity.
    + rewrite upd_length. lia.
Qed.

(** ** trailing bits *)
Lemma clz_lt l : length l = 8%nat -> (clz8 (bv l) <? 8) = existsb id l.
Proof.
  intros L. destruct (clz8_bits l L) as [(k & Hk & -> & E) | (-> & ->)]; [|reflexivity].
  rewrite (proj2 (Z.ltb_lt _ _)) by lia. symmetry. apply existsb_exists. exists true. split; [|reflexivity].
  rewrite E. apply in_or_app. right. left. reflexivity.
Qed.

Lemma clz_rem x : (length x <= 8)%nat -> (clz8 (bv (x ++ repeat false (8 - length x))) <? Z.of_nat (length x)) = existsb id x.
Proof.
  intros L. assert (L8 : length (x ++ repeat false (8 - length x)) = 8%nat) by (rewrite app_length, repeat_length; lia).
  destruct (clz8_bits _ L8) as [(k & Hk & -> & E) | (-> & E)].
  - assert (K : nth k (x ++ repeat false (8 - length x)) false = true).
    { rewrite E, app_nth2, repeat_length, Nat.sub_diag by (rewrite repeat_length; lia). reflexivity. }
    destruct (le_lt_dec (length x) k) as [Ge|Lt].
    + exfalso. rewrite app_nth2 in K by lia. rewrite nth_repeat in K. discriminate.
    + rewrite (proj2 (Z.ltb_lt _ _)) by lia. symmetry. apply existsb_exists. exists true. split; [|reflexivity].
      rewrite app_nth1 in K by lia. rewrite <- K. apply nth_In. exact Lt.
  - rewrite (proj2 (Z.ltb_ge _ _)) by lia. symmetry. apply not_true_is_false. intros H. apply existsb_exists in H.
    destruct H as (y & Hy & Ey). unfold id in Ey. subst y.
    assert (In true (repeat false 8)) by (rewrite <- E; apply in_or_app; left; exact Hy). apply repeat_spec in H. discriminate.
Qed.

Definition dbits (L : nat) (mem : list Z) : list bool := bits_of (firstn L mem).

Lemma dbits_eq L mem : dbits L mem = firstn (8 * L) (bits_of mem).
Proof. apply bits_of_firstn. Qed.
Lemma dbits_length L mem : (L <= length mem)%nat -> length (dbits L mem) = (8 * L)%nat.
Proof. intros H. unfold dbits. rewrite bits_of_length, firstn_length. lia. Qed.

Lemma dbits_split L mem i : (L <= length mem)%nat -> (i <= 8 * L)%nat ->
  skipn i (bits_of mem) = skipn i (dbits L mem) ++ skipn (8 * L) (bits_of mem).
Proof.
  intros HL Hi. rewrite dbits_eq. rewrite <- (firstn_skipn (8 * L) (bits_of mem)) at 1.
  rewrite skipn_app. f_equal. rewrite firstn_length, bits_of_length.
  replace (i - Nat.min (8 * L) (8 * length mem))%nat with 0%nat by lia. reflexivity.
Qed.

Lemma trailing_done fuel mem slen i failed : slen <= i -> trailing_loop fuel mem slen i failed = Ok failed.
Proof. intros H. destruct fuel; cbn [trailing_loop]; rewrite (proj2 (Z.ltb_ge _ _)) by lia; reflexivity. Qed.

(** [ok8 i]: a full 8-bit read at i stays inside mem *)
Lemma trailing_ok L mem : bytes mem -> (L <= length mem)%nat -> forall fuel i failed,
  (i <= 8 * L)%nat -> (8 * L <= i + 8 * fuel)%nat ->
  ((L < length mem)%nat \/ (i mod 8 <> 0)%nat) ->
  trailing_loop fuel mem (8 * Z.of_nat L) (Z.of_nat i) failed = Ok (failed || existsb id (skipn i (dbits L mem))).
Proof.
  intros Hb HL. induction fuel as [|fuel IH]; intros i failed Hi Hf Hok; cbn [trailing_loop].
  - rewrite (proj2 (Z.ltb_ge _ _)) by lia. rewrite skipn_all2 by (rewrite dbits_length; lia).
    cbn [existsb]. rewrite orb_false_r. reflexivity.
  - destruct (Z.ltb_spec (Z.of_nat i) (8 * Z.of_nat L)) as [Lt|Ge].
    2: { rewrite skipn_all2 by (rewrite dbits_length; lia). cbn [existsb]. rewrite orb_false_r. reflexivity. }
    destruct (le_lt_dec (i + 8) (8 * L)) as [F8|Fr].
    + rewrite Z.min_l by lia. change (8 =? 8) with true. cbv iota.
      pose proof (dbits_split L mem i HL Hi) as S0.
      set (x := firstn 8 (skipn i (dbits L mem))).
      assert (Lx : length x = 8%nat) by (unfold x; rewrite firstn_length, skipn_length, dbits_length by exact HL; lia).
      assert (Ex : skipn i (dbits L mem) = x ++ skipn (i + 8) (dbits L mem)).
      { rewrite (Nat.add_comm i 8), <- skipn_skipn. unfold x. rewrite firstn_skipn. reflexivity. }
      rewrite extract8_ok; [|exact Hb|lia|].
      2: { assert (Z.of_nat i / 8 < Z.of_nat (length mem) - 1); [|lia]. apply Z.div_lt_upper_bound; [lia|].
           destruct Hok as [Hok|Hok]; [lia|].
           assert (i <> 8 * (L - 1))%nat by (intros ->; apply Hok; rewrite Nat.mul_comm; apply Nat.mod_mul; lia). lia. }
      cbn [bind]. rewrite Nat2Z.id, S0, firstn_app.
      replace (8 - length (skipn i (dbits L mem)))%nat with 0%nat by (rewrite skipn_length, dbits_length by exact HL; lia).
      rewrite firstn_O, app_nil_r. fold x. rewrite clz_lt by exact Lx.
      replace (Z.of_nat i + 8) with (Z.of_nat (i + 8)) by lia. rewrite IH; [|lia|lia|].
      * rewrite Ex, existsb_app, orb_assoc. reflexivity.
      * destruct Hok as [Hok|Hok]; [left; exact Hok|right]. rewrite <- Nat.add_mod_idemp_r, Nat.mod_same, Nat.add_0_r by lia. exact Hok.
    + rewrite Z.min_r by lia. rewrite (proj2 (Z.eqb_neq _ _)) by lia.
      rewrite extract_rem_ok; [|exact Hb|lia|apply Z.div_lt_upper_bound; lia]. cbn [bind]. rewrite Nat2Z.id.
      assert (M : Z.of_nat i mod 8 = Z.of_nat i - 8 * (Z.of_nat L - 1)).
      { symmetry. apply (Z.mod_unique_pos _ _ (Z.of_nat L - 1)); lia. }
      rewrite M. rewrite (dbits_split L mem i HL Hi).
      set (x := skipn i (dbits L mem)). assert (Lx : length x = (8 * L - i)%nat) by (unfold x; rewrite skipn_length, dbits_length by exact HL; reflexivity).
      rewrite firstn_lead by (rewrite Lx; lia).
      replace (Z.to_nat (Z.of_nat i - 8 * (Z.of_nat L - 1))) with (8 - length x)%nat by (rewrite Lx; lia).
      replace (8 * Z.of_nat L - Z.of_nat i) with (Z.of_nat (length x)) by (rewrite Lx; lia).
      rewrite clz_rem by (rewrite Lx; lia).
      replace (Z.of_nat i + Z.of_nat (length x)) with (Z.of_nat (8 * L)) by (rewrite Lx; lia).
      rewrite trailing_done by lia. reflexivity.
Qed.

(** ** soundness, with two readable bytes after the signature *)
Lemma long_run_sound L mem : bytes mem -> (L + 2 <= length mem)%nat -> forall fuel i, (8 * L <= i + 8 * fuel)%nat ->
  exists j, long_run fuel mem (8 * Z.of_nat L) (Z.of_nat i) = Ok (Z.of_nat j) /\ (i <= j)%nat /\
  ((8 * L <= j)%nat \/
   ((j < 8 * L)%nat /\ exists m chunk, length chunk = 8%nat /\ In true chunk /\
     skipn i (bits_of mem) = repeat false (8 * m) ++ chunk ++ skipn j (bits_of mem))).
Proof.
  intros Hb HL. induction fuel as [|fuel IH]; intros i Hf; cbn [long_run].
  - rewrite (proj2 (Z.ltb_ge _ _)) by lia. exists i. split; [reflexivity|]. split; [lia|]. left. lia.
  - destruct (Z.ltb_spec (Z.of_nat i) (8 * Z.of_nat L)) as [Lt|Ge].
    2: { exists i. split; [reflexivity|]. split; [lia|]. left. lia. }
    destruct (le_lt_dec (i + 8) (8 * L)) as [F8|Fr].
    + rewrite Z.min_l by lia. change (8 <? 8) with false. cbv iota.
      set (x := firstn 8 (skipn i (bits_of mem))).
      assert (Lx : length x = 8%nat) by (unfold x; rewrite firstn_length, skipn_length, bits_of_length; lia).
      assert (Ex : skipn i (bits_of mem) = x ++ skipn (i + 8) (bits_of mem)).
      { rewrite (Nat.add_comm i 8), <- skipn_skipn. unfold x. rewrite firstn_skipn. reflexivity. }
      rewrite (ex8 mem i x _ Hb Ex Lx).
      2: { intros X. apply (f_equal (@length _)) in X. rewrite skipn_length, bits_of_length in X. cbn [length] in X. lia. }
      cbn [bind]. replace (Z.of_nat i + 8) with (Z.of_nat (i + 8)) by lia.
      destruct (clz8_bits x Lx) as [(k & Hk & Ek & E) | (Ek & E)]; rewrite Ek.
      * rewrite (proj2 (Z.ltb_lt _ _)) by lia. exists (i + 8)%nat. split; [reflexivity|]. split; [lia|].
        destruct (le_lt_dec (8 * L) (i + 8)); [left; assumption|right]. split; [assumption|].
        exists 0%nat, x. split; [exact Lx|]. split; [rewrite E; apply in_or_app; right; left; reflexivity|]. exact Ex.
      * change (8 <? 8) with false. cbv iota. destruct (IH (i + 8)%nat ltac:(lia)) as (j & -> & Lj & D).
        exists j. split; [reflexivity|]. split; [lia|]. destruct D as [D | (Dj & m & chunk & C1 & C2 & C3)]; [left; exact D|right].
        split; [exact Dj|]. exists (S m), chunk. split; [exact C1|]. split; [exact C2|].
        rewrite Ex, E, C3, app_assoc, <- repeat_app. f_equal. f_equal. lia.
    + rewrite Z.min_r by lia. rewrite (proj2 (Z.ltb_lt (8 * Z.of_nat L - Z.of_nat i) 8)) by lia.
      rewrite extract_rem_ok; [|exact Hb|lia|apply Z.div_lt_upper_bound; lia]. cbn [bind].
      replace (Z.of_nat i + (8 * Z.of_nat L - Z.of_nat i)) with (Z.of_nat (8 * L)) by lia.
      exists (8 * L)%nat. split; [|split; [lia|left; lia]].
      destruct (clz8 _ <? _); [reflexivity|]. destruct fuel; cbn [long_run]; rewrite (proj2 (Z.ltb_ge _ _)) by lia; reflexivity.
Qed.

Lemma coeff_sound L mem fuel i : bytes mem -> (L + 2 <= length mem)%nat -> (L <= fuel)%nat -> (i < 8 * L)%nat ->
  exists r, decompress_coeff fuel mem (8 * Z.of_nat L) (Z.of_nat i) = Ok r /\
  match r with
  | None => True
  | Some (c, i') => exists j, i' = Z.of_nat j /\ (i < j)%nat /\
      ((8 * L < j)%nat \/ ((j <= 8 * L)%nat /\ exists w, codeword w c /\ skipn i (dbits L mem) = w ++ skipn j (dbits L mem)))
  end.
Proof.
  intros Hb HL Hf Hi. unfold decompress_coeff.
  assert (NE : forall j, (j <= 8 * L + 15)%nat -> skipn j (bits_of mem) <> []).
  { intros j Hj X. apply (f_equal (@length _)) in X. rewrite skipn_length, bits_of_length in X. cbn [length] in X. lia. }
  assert (T : forall j w, (j <= 8 * L)%nat -> skipn i (bits_of mem) = w ++ skipn j (bits_of mem) -> skipn i (dbits L mem) = w ++ skipn j (dbits L mem)).
  { intros j w Hj E. rewrite (dbits_split L mem i), (dbits_split L mem j), app_assoc in E by lia. apply app_inv_tail in E. exact E. }
  assert (SP : forall j, (j <= 8 * L + 8)%nat -> exists x, length x = 8%nat /\ skipn j (bits_of mem) = x ++ skipn (j + 8) (bits_of mem)).
  { intros j Hj. exists (firstn 8 (skipn j (bits_of mem))). split; [rewrite firstn_length, skipn_length, bits_of_length; lia|].
    rewrite (Nat.add_comm j 8), <- skipn_skipn, firstn_skipn. reflexivity. }
  destruct (SP i ltac:(lia)) as (x & Lx & Ex). rewrite (ex8 mem i x _ Hb Ex Lx) by (apply NE; lia). cbn [bind].
  destruct x as [|sgn low]; [discriminate|]. assert (Ll : length low = 7%nat) by (simpl in Lx; lia).
  destruct (sign_low sgn low Ll) as [-> ->].
  destruct (SP (i + 8)%nat ltac:(lia)) as (y & Ly & Ey). replace (Z.of_nat i + 8) with (Z.of_nat (i + 8)) by lia.
  rewrite (ex8 mem (i + 8) y _ Hb Ey Ly) by (apply NE; lia). cbn [bind].
  assert (G : forall sgn v, ((if b2z sgn =? 1 then - v else v) = signed sgn v)) by (intros [|] v; reflexivity).
  assert (Z0 : forall v, (signed sgn v =? 0) && (b2z sgn =? 1) = false -> ~ (sgn = true /\ v = 0)).
  { intros v H [-> ->]. discriminate. }
  destruct (clz8_bits y Ly) as [(k & Hk & Ek & E) | (Ek & E)]; rewrite Ek.
  - rewrite (proj2 (Z.ltb_lt _ _)) by lia. cbn [bind]. rewrite G.
    destruct (_ && _) eqn:Z1; [exists None; split; [reflexivity|exact I]|].
    eexists. split; [reflexivity|]. cbv beta iota. exists (i + 9 + k)%nat. split; [lia|]. split; [lia|].
    destruct (le_lt_dec (i + 9 + k) (8 * L)) as [Le|Gt]; [right|left; lia]. split; [lia|].
    exists (sgn :: low ++ repeat false k ++ [true]). split; [constructor; auto|].
    apply T; [lia|]. rewrite Ex, Ey.
    assert (S1 : skipn (i + 9 + k) (bits_of mem) = skipn (S k) y ++ skipn (i + 8 + 8) (bits_of mem)).
    { replace (i + 9 + k)%nat with (S k + (i + 8))%nat by lia. rewrite <- skipn_skipn, Ey, skipn_app.
      replace (S k - length y)%nat with 0%nat by lia. reflexivity. }
    rewrite S1. cbn [app]. rewrite <- !app_assoc. cbn [app]. do 2 f_equal.
    transitivity ((repeat false k ++ [true] ++ skipn (S k) y) ++ skipn (i + 8 + 8) (bits_of mem)); [f_equal; exact E|].
    rewrite <- !app_assoc. reflexivity.
  - change (8 <? 8) with false. cbv iota. replace (Z.of_nat (i + 8) + 8) with (Z.of_nat (i + 16)) by lia.
    destruct (long_run_sound L mem Hb HL fuel (i + 16) ltac:(lia)) as (j & -> & Lj & D). cbn [bind]. rewrite G.
    destruct (_ && _) eqn:Z1; [exists None; split; [reflexivity|exact I]|].
    eexists. split; [reflexivity|]. cbv beta iota. exists (S j). split; [lia|]. split; [lia|].
    destruct D as [D | (Dj & m & chunk & C1 & C2 & C3)]; [left; lia|]. right. split; [lia|].
    assert (S1 : exists b, skipn j (bits_of mem) = b :: skipn (S j) (bits_of mem)).
    { exists (nth j (bits_of mem) false). apply skipn_S. rewrite bits_of_length. lia. }
    destruct S1 as [b S1].
    exists (sgn :: low ++ repeat false (8 + 8 * m) ++ chunk ++ [b]). split; [constructor; auto|].
    apply T; [lia|]. replace (i + 16)%nat with (i + 8 + 8)%nat in C3 by lia.
    rewrite Ex, Ey, E, C3, S1, repeat_app. cbn [app]. rewrite <- !app_assoc. reflexivity.
Qed.

Lemma loop_sound L mem fuel : bytes mem -> (L + 2 <= length mem)%nat -> (L <= fuel)%nat -> forall n i ci p,
  length p = (ci + n)%nat ->
  exists failed j ci' p', decompress_loop n fuel mem (8 * Z.of_nat L) (Z.of_nat i) ci p = Ok (failed, Z.of_nat j, ci', p') /\
   length p' = length p /\ (i <= j)%nat /\ (ci' <= ci + n)%nat /\
   (failed = false -> ci' = (ci + n)%nat -> (j <= 8 * L)%nat ->
     exists ws cs, Forall2 codeword ws cs /\ length cs = n /\ p' = firstn ci p ++ cs /\
       skipn i (dbits L mem) = concat ws ++ skipn j (dbits L mem)).
Proof.
  intros Hb HL Hf. induction n as [|n IH]; intros i ci p Lp; cbn [decompress_loop].
  - exists false, i, ci, p. split; [reflexivity|]. split; [reflexivity|]. split; [lia|]. split; [lia|].
    intros _ _ _. exists [], []. split; [constructor|]. split; [reflexivity|]. split; [|reflexivity].
    rewrite app_nil_r, firstn_all2 by lia. reflexivity.
  - destruct (Z.ltb_spec (Z.of_nat i) (8 * Z.of_nat L)) as [Lt|Ge].
    2: { exists false, i, ci, p. split; [reflexivity|]. split; [reflexivity|]. split; [lia|]. split; [lia|]. intros _ X. lia. }
    destruct (coeff_sound L mem fuel i Hb HL Hf ltac:(lia)) as (r & -> & Hr). cbn [bind].
    destruct r as [[c i']|].
    + destruct Hr as (j & -> & Lj & D). rewrite wr_Ok by lia. cbn [bind].
      destruct (IH j (S ci) (upd p ci c) ltac:(rewrite upd_length; lia)) as (failed & j' & ci' & p' & E & Lp' & Lj' & Lc & K).
      exists failed, j', ci', p'. split; [exact E|]. rewrite upd_length in Lp'. split; [exact Lp'|]. split; [lia|]. split; [lia|].
      intros Hfd Hc Hj. destruct (K Hfd ltac:(lia) Hj) as (ws & cs & F & Lcs & Ep & Es).
      destruct D as [D | (D & w & Hw & Ew)]; [lia|].
      exists (w :: ws), (c :: cs). split; [constructor; assumption|]. split; [simpl; lia|].
      split; [rewrite Ep, firstn_upd_S, <- app_assoc by lia; reflexivity|].
      cbn [concat]. rewrite Ew, Es, app_assoc. reflexivity.
    + exists true, i, ci, p. split; [reflexivity|]. split; [reflexivity|]. split; [lia|]. split; [lia|]. discriminate.
Qed.

Lemma existsb_false l : existsb id l = false <-> l = repeat false (length l).
Proof.
  induction l as [|b l IH]; [split; reflexivity|]. cbn [existsb length repeat]. unfold id at 1. destruct b; cbn [orb].
  - split; discriminate.
  - rewrite IH. split; [intros H; f_equal; exact H|intros H; injection H as H; exact H].
Qed.

Lemma body_dbits lg mem : falcon_lg lg -> body_bits lg mem = skipn 328 (dbits (sig_len lg) mem).
Proof.
  intros Hlg. unfold body_bits, dbits. change (sig_bytes lg) with (sig_len lg). change 328%nat with (8 * 41 + 0)%nat. rewrite skipn_bits, skipn_O by lia.
  f_equal. rewrite (firstn_skipn_comm (sig_len lg - 41) 41 mem). f_equal. f_equal.
  destruct Hlg as [-> | ->]; reflexivity.
Qed.

Lemma decompress_iff lg mem p0 : falcon_lg lg -> bytes mem -> (sig_len lg + 2 <= length mem)%nat -> length p0 = (2 ^ lg)%nat ->
  exists b s, decompress_sig lg mem p0 = Ok (b, s) /\
    (b = false -> s = repeat 0 (2 ^ lg)) /\ (b = true -> accepts lg mem s) /\
    (forall s', accepts lg mem s' -> b = true /\ s = s').
Proof.
  intros Hlg Hb HL Lp. set (L := sig_len lg) in *.
  assert (L41 : (41 <= L)%nat) by (unfold L; destruct Hlg as [-> | ->]; vm_compute; lia).
  unfold decompress_sig. fold L. change (8 + 320) with (Z.of_nat 328).
  assert (C : forall s', accepts lg mem s' -> exists j, (j < 8 * L)%nat /\
     decompress_loop (2 ^ lg) L mem (8 * Z.of_nat L) (Z.of_nat 328) 0 p0 = Ok (false, Z.of_nat j, (2 ^ lg)%nat, s') /\
     existsb id (skipn j (dbits L mem)) = false).
  { intros s' (Ls & ws & z & F & Hz & E). rewrite (body_dbits lg mem Hlg) in E. fold L in E.
    pose proof (f_equal (@length _) E) as LE. rewrite skipn_length, dbits_length, app_length, repeat_length in LE by lia.
    exists (328 + length (concat ws))%nat. split; [lia|].
    assert (EB : skipn 328 (bits_of mem) = concat ws ++ repeat false z ++ skipn (8 * L) (bits_of mem)).
    { rewrite (dbits_split L mem 328) by lia. rewrite E, <- app_assoc. reflexivity. }
    split.
    - rewrite <- Ls. rewrite (loop_complete mem (8 * Z.of_nat L) L Hb ws s' F 328 0 p0 _ EB); try lia; [reflexivity|].
      rewrite app_length, skipn_length, bits_of_length. lia.
    - rewrite (Nat.add_comm 328), <- skipn_skipn, E, skipn_lead by reflexivity.
      apply existsb_false. rewrite repeat_length. reflexivity. }
  destruct (loop_sound L mem L Hb HL ltac:(lia) (2 ^ lg) 328 0 p0 ltac:(lia)) as (failed & j & ci & p & E & Lp' & Lj & Lc & K).
  assert (TR : forall f, (j < 8 * L)%nat -> trailing_loop L mem (8 * Z.of_nat L) (Z.of_nat j) f = Ok (f || existsb id (skipn j (dbits L mem)))).
  { intros f Hj. apply trailing_ok; try assumption; lia. }
  rewrite E. cbn [bind]. rewrite Z.geb_leb.
  assert (WF : wrs p 0 (repeat 0 (2 ^ lg * 1)) = Ok (repeat 0 (2 ^ lg))) by (rewrite Nat.mul_1_r; apply wrs_all; rewrite repeat_length; lia).
  assert (WT : wrs p 0 (repeat 0 (2 ^ lg * 0)) = Ok p) by (rewrite Nat.mul_0_r; cbn [repeat]; rewrite wrs_ok by (cbn [length]; lia); reflexivity).
  destruct (failed || (8 * Z.of_nat L <=? Z.of_nat j) || Nat.ltb ci (2 ^ lg)) eqn:FD; cbn [negb bind].
  - rewrite WF. cbn [bind]. exists false, (repeat 0 (2 ^ lg)). split; [reflexivity|]. split; [reflexivity|]. split; [discriminate|].
    intros s' A. exfalso. destruct (C s' A) as (j1 & Hj1 & E1 & _). rewrite E in E1. injection E1 as E1 E2 E3 E4. subst failed ci.
    rewrite Nat.ltb_irrefl, orb_false_r in FD. cbn [orb] in FD. lia.
  - apply orb_false_iff in FD. destruct FD as [FD F3]. apply orb_false_iff in FD. destruct FD as [-> F2].
    apply Nat.ltb_ge in F3. apply Z.leb_gt in F2. rewrite TR by lia. cbn [orb bind].
    destruct (existsb id (skipn j (dbits L mem))) eqn:EX.
    + rewrite WF. cbn [bind negb]. exists false, (repeat 0 (2 ^ lg)). split; [reflexivity|]. split; [reflexivity|]. split; [discriminate|].
      intros s' A. exfalso. destruct (C s' A) as (j1 & Hj1 & E1 & X1). rewrite E in E1. injection E1 as E1 E2 E3.
      assert (j = j1) by lia. subst j1. congruence.
    + rewrite WT. cbn [bind negb]. exists true, p. split; [reflexivity|]. split; [discriminate|]. split.
      * intros _. destruct (K eq_refl ltac:(lia) ltac:(lia)) as (ws & cs & F & Lcs & Ep & Es). cbn [firstn app] in Ep. subst p.
        split; [exact Lcs|]. apply existsb_false in EX. exists ws, (length (skipn j (dbits L mem))). split; [exact F|].
        split; [rewrite skipn_length, dbits_length by lia; lia|]. rewrite (body_dbits lg mem Hlg). fold L. rewrite Es. f_equal. exact EX.
      * intros s' A. destruct (C s' A) as (j1 & Hj1 & E1 & X1). rewrite E in E1. injection E1 as E1 E2 E3. auto.
Qed.

(** ** the signature occupies all readable memory *)
Lemma exact_ok lg mem p0 s : falcon_lg lg -> bytes mem -> length mem = sig_len lg -> length p0 = (2 ^ lg)%nat ->
  length s = (2 ^ lg)%nat -> forall ws z, Forall2 codeword ws s -> (8 <= z)%nat -> (z mod 8 <> 0)%nat ->
  body_bits lg mem = concat ws ++ repeat false z ->
  decompress_sig lg mem p0 = Ok (true, s).
Proof.
  intros Hlg Hb HL Lp Ls ws z F Hz Hz8 E. set (L := sig_len lg) in *.
  assert (L41 : (41 <= L)%nat) by (unfold L; destruct Hlg as [-> | ->]; vm_compute; lia).
  unfold decompress_sig. fold L. change (8 + 320) with (Z.of_nat 328).
  rewrite (body_dbits lg mem Hlg) in E. fold L in E.
  pose proof (f_equal (@length _) E) as LE. rewrite skipn_length, dbits_length, app_length, repeat_length in LE by lia.
  assert (EB : skipn 328 (bits_of mem) = concat ws ++ repeat false z).
  { rewrite (dbits_split L mem 328) by lia. rewrite E, skipn_all2, app_nil_r; [reflexivity|]. rewrite bits_of_length. lia. }
  rewrite <- Ls. rewrite (loop_complete mem (8 * Z.of_nat L) L Hb ws s F 328 0 p0 _ EB); try lia; [|rewrite repeat_length; lia].
  cbn [bind]. rewrite Z.geb_leb, (proj2 (Z.leb_gt _ _)), Nat.ltb_irrefl by lia. cbn [orb negb].
  rewrite trailing_ok; try assumption; try lia.
  cbn [bind orb]. rewrite (Nat.add_comm 328), <- skipn_skipn, E, skipn_lead by reflexivity.
  rewrite (proj2 (existsb_false (repeat false z))) by (rewrite repeat_length; reflexivity).
  rewrite Nat.mul_0_r. cbn [repeat firstn app]. rewrite wrs_ok by (cbn [length]; lia). reflexivity.
Qed.

Lemma trailing_ub L mem : bytes mem -> length mem = L -> forall fuel i failed,
  (i < 8 * L)%nat -> (8 * L <= i + 8 * fuel)%nat -> (i mod 8 = 0)%nat ->
  trailing_loop fuel mem (8 * Z.of_nat L) (Z.of_nat i) failed = UB.
Proof.
  intros Hb HL. induction fuel as [|fuel IH]; intros i failed Hi Hf Hok; cbn [trailing_loop]; [lia|].
  apply Nat.mod_divides in Hok; [|lia]. destruct Hok as [c ->].
  rewrite (proj2 (Z.ltb_lt _ _)) by lia. rewrite Z.min_l by lia. change (8 =? 8) with true. cbv iota.
  destruct (Nat.eq_dec (S c) L) as [EL|NL].
  - rewrite extract8_ub; [reflexivity|lia|]. replace (Z.of_nat (8 * c)) with (Z.of_nat c * 8) by lia. rewrite Z.div_mul by lia. lia.
  - rewrite extract8_ok; [|exact Hb|lia|replace (Z.of_nat (8 * c)) with (Z.of_nat c * 8) by lia; rewrite Z.div_mul by lia; lia].
    cbn [bind]. replace (Z.of_nat (8 * c) + 8) with (Z.of_nat (8 * S c)) by lia. apply IH; [lia|lia|].
    rewrite Nat.mul_comm. apply Nat.mod_mul. lia.
Qed.

Lemma exact_ub lg mem p0 s : falcon_lg lg -> bytes mem -> length mem = sig_len lg -> length p0 = (2 ^ lg)%nat ->
  length s = (2 ^ lg)%nat -> forall ws z, Forall2 codeword ws s -> (8 <= z)%nat -> (z mod 8 = 0)%nat ->
  body_bits lg mem = concat ws ++ repeat false z ->
  decompress_sig lg mem p0 = UB.
Proof.
  intros Hlg Hb HL Lp Ls ws z F Hz Hz8 E. set (L := sig_len lg) in *.
  assert (L41 : (41 <= L)%nat) by (unfold L; destruct Hlg as [-> | ->]; vm_compute; lia).
  unfold decompress_sig. fold L. change (8 + 320) with (Z.of_nat 328).
  rewrite (body_dbits lg mem Hlg) in E. fold L in E.
  pose proof (f_equal (@length _) E) as LE. rewrite skipn_length, dbits_length, app_length, repeat_length in LE by lia.
  assert (EB : skipn 328 (bits_of mem) = concat ws ++ repeat false z).
  { rewrite (dbits_split L mem 328) by lia. rewrite E, skipn_all2, app_nil_r; [reflexivity|]. rewrite bits_of_length. lia. }
  rewrite <- Ls. rewrite (loop_complete mem (8 * Z.of_nat L) L Hb ws s F 328 0 p0 _ EB); try lia; [|rewrite repeat_length; lia].
  cbn [bind]. rewrite Z.geb_leb, (proj2 (Z.leb_gt _ _)), Nat.ltb_irrefl by lia. cbn [orb negb].
  rewrite trailing_ub; [reflexivity|assumption|assumption|lia|lia|].
  apply Nat.mod_divides in Hz8; [|lia]. destruct Hz8 as [c Hc].
  replace (328 + length (concat ws))%nat with ((L - c) * 8)%nat by lia. apply Nat.mod_mul. lia.
Qed.
