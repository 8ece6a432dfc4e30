(** P_sampz.v -- ber_exp and samplerz for any floating point behaviour. *)
From Verif Require Import Base Spec M_float M_samp P_ff P_xform P_codec P_keys P_sig P_comp P_samp.
Open Scope Z_scope.

Section Any.
Context (F : fops).

Lemma to_range_ok l h x v : to_range F l h x = Ok v -> l <= v < h.
Proof. unfold to_range. destruct (ftrunc F x); [|discriminate]. destruct (Z.leb_spec l z), (Z.ltb_spec z h); cbn; try discriminate. intros E. injection E. lia. Qed.

Lemma to_range_no_fuel l h x : to_range F l h x <> Fuel.
Proof. unfold to_range. destruct (ftrunc F x); [|discriminate]. destruct (_ && _); discriminate. Qed.
Lemma exp_core_no_fuel z1 z2 : exp_core z1 z2 <> Fuel.
Proof. unfold exp_core. unfold Cexp. cbn [rd nth_error bind forn]. discriminate. Qed.
Lemma threshold_no_fuel x ccs : ber_threshold F x ccs <> Fuel.
Proof.
  unfold ber_threshold, approx_exp, to_u64. pose proof (fun x => to_range_no_fuel 0 18446744073709551616 x) as N.
  destruct (to_range F _ _ (ffloor F (fmul F x (INV_LN2 F)))) eqn:E1; cbn [bind]; [|discriminate|destruct (N _ E1)].
  match goal with |- context [to_range F ?a ?b ?c] => destruct (to_range F a b c) eqn:E2 end; cbn [bind]; [|discriminate|destruct (N _ E2)].
  match goal with |- context [to_range F ?a ?b ?c] => destruct (to_range F a b c) eqn:E3 end; cbn [bind]; [|discriminate|destruct (N _ E3)].
  destruct (exp_core _ _) eqn:E4; cbn [bind]; [discriminate|discriminate|destruct (exp_core_no_fuel _ _ E4)].
Qed.
Lemma threshold_range x ccs t : ber_threshold F x ccs = Ok t -> 0 <= t < 2 ^ 64.
Proof.
  unfold ber_threshold. intros E. apply bind_Ok in E. destruct E as (s & Hs & E). apply bind_Ok in E. destruct E as (e & He & E).
  apply to_range_ok in Hs. injection E as <-. rewrite Z.shiftr_div_pow2 by lia. unfold u64.
  change (2 ^ 64) with 18446744073709551616.
  pose proof (Z.mod_pos_bound (2 * e - 1) 18446744073709551616 ltac:(lia)) as R. set (m := _ mod _) in *. clearbody m.
  assert (0 < 2 ^ Z.min s 63) by (apply Z.pow_pos_nonneg; lia). split; [apply Z.div_pos; lia|].
  apply Z.le_lt_trans with m; [|lia]. apply Z.div_le_upper_bound; nia.
Qed.

Lemma ber_exp_ok x ccs g pos t : (forall i, byte (g i)) -> ber_threshold F x ccs = Ok t ->
  exists n, ber_exp F x ccs g pos = Ok (b2z (be_value 256 (bytes_at g pos 8) <? t), (pos + n)%nat) /\ decided_by g pos t n.
Proof.
  intros Hg Ht. pose proof (threshold_range _ _ _ Ht) as R. unfold ber_exp. rewrite Ht. cbn [bind].
  destruct (ber_loop_ok 8 t g pos ltac:(lia) ltac:(lia) Hg) as (w & n & H1 & H2 & H3 & H4 & H5). exists n.
  change (256 ^ Z.of_nat 8) with (2 ^ 64) in *. rewrite (Z.mod_small t) in * by lia. rewrite H1, H2. split; [reflexivity|].
  split; [exact H3|]. split; [exact H4|exact H5].
Qed.

Lemma base_rng_ok g pos : (forall i, byte (g i)) -> exists z0, (z0 < 19)%nat /\
  tail_mass z0 <= le_value 256 (bytes_at g pos 9) < tail_mass z0 + nth z0 pdt 0 /\ base_sampler_rng g pos = Ok (Z.of_nat z0, (pos + 9)%nat).
Proof.
  intros Hg. unfold base_sampler_rng, rng_read. fold (bytes_at g pos 9).
  destruct (base_total (bytes_at g pos 9) (bytes_at_len _ _ _) (bytes_at_ok _ _ _ Hg)) as (z0 & Hz & E).
  exists z0. split; [exact Hz|]. split; [apply base_interval; [apply bytes_at_len|apply bytes_at_ok; exact Hg|exact Hz|exact E]|].
  rewrite E. reflexivity.
Qed.

Definition thr (mu sigma' sigma_min : D F) (z0 : nat) (b t : Z) : Prop :=
  ber_threshold F (exponent F (fsub F mu (ffloor F mu)) (inv_2sq F sigma') (inv_2sq F (sigma_max F)) (Z.of_nat z0) b) (fdiv F sigma_min sigma') = Ok t.

Lemma land1 v : Z.land v 1 = v mod 2.
Proof. change 1 with (Z.ones 1). apply Z.land_ones. lia. Qed.
Lemma signed_eq z0 b : b = 0 \/ b = 1 -> zsigned z0 b = b + (2 * b - 1) * Z.of_nat z0.
Proof. unfold zsigned. intros [->| ->]; cbn [Z.eqb Pos.eqb]; lia. Qed.
Lemma signed_range z0 b : (z0 < 19)%nat -> -18 <= zsigned z0 b <= 19.
Proof. unfold zsigned. intros H. destruct (b =? 1); lia. Qed.

Lemma samplerz_ok fuel mu sigma' sigma_min g pos v pos' : (forall i, byte (g i)) ->
  samplerz F fuel mu sigma' sigma_min g pos = Ok (v, pos') <->
  exists k z, (k <= fuel)%nat /\ rejection (thr mu sigma' sigma_min) g k pos z pos' /\ to_i32 F (fadd F (fofz F z) (ffloor F mu)) = Ok v.
Proof.
  intros Hg. unfold samplerz. revert pos. induction fuel as [|fuel IH]; intros pos; cbn [samplerz_loop].
  { split; [discriminate|]. intros (k & z & Hk & Hr & _). assert (k = 0)%nat by lia. subst k. inversion Hr. }
  destruct (base_rng_ok g pos Hg) as (z0 & Hz0 & Hi & ->). cbn [bind]. rewrite land1.
  set (b := g (pos + 9)%nat mod 2). assert (Hb : b = 0 \/ b = 1) by (unfold b; pose proof (Z.mod_pos_bound (g (pos + 9)%nat) 2); lia).
  assert (HP : proposal g pos z0 b) by (split; [exact Hz0|split; [exact Hi|reflexivity]]).
  assert (HU : forall z0' b', proposal g pos z0' b' -> z0' = z0 /\ b' = b).
  { intros z0' b' (A1 & A2 & A3). split; [|exact A3]. apply Nat2Z.inj.
    assert (E1 : base_sampler (bytes_at g pos 9) = Ok (Z.of_nat z0)) by (apply base_interval; [apply bytes_at_len|apply bytes_at_ok; exact Hg|exact Hz0|exact Hi]).
    assert (E2 : base_sampler (bytes_at g pos 9) = Ok (Z.of_nat z0')) by (apply base_interval; [apply bytes_at_len|apply bytes_at_ok; exact Hg|exact A1|exact A2]).
    congruence. }
  rewrite <- (signed_eq z0 b Hb).
  replace (S (pos + 9)) with (pos + 10)%nat by lia.
  destruct (ber_threshold F (exponent F (fsub F mu (ffloor F mu)) (inv_2sq F sigma') (inv_2sq F (sigma_max F)) (Z.of_nat z0) b) (fdiv F sigma_min sigma')) as [t| |] eqn:ET.
  - destruct (ber_exp_ok _ _ g (pos + 10) t Hg ET) as (n & -> & HD). cbn [bind].
    assert (DU : forall n', decided_by g (pos + 10) t n' -> n' = n).
    { intros n' (A1 & A2 & A3). destruct HD as (B1 & B2 & B3). destruct (Nat.lt_trichotomy n n') as [L|[L|L]]; [|congruence|].
      - destruct B3 as [->|B3]; [lia|]. destruct B3. apply A2. exact L.
      - destruct A3 as [->|A3]; [lia|]. destruct A3. apply B2. exact L. }
    destruct (Z.ltb_spec (be_value 256 (bytes_at g (pos + 10) 8)) t) as [Hlt|Hge]; cbn [b2z Z.eqb Pos.eqb].
    + split.
      * intros E. apply bind_Ok in E. destruct E as (o & Ho & E). injection E as <- <-. exists 1%nat, (zsigned z0 b). split; [lia|]. split; [|exact Ho].
        apply rej_accept with t; assumption.
      * intros (k & z & Hk & Hr & Ho). inversion Hr; subst.
        -- destruct (HU _ _ H) as [-> ->]. unfold thr in H0. rewrite ET in H0. injection H0 as <-. rewrite Ho. cbn [bind]. rewrite (DU _ H2). reflexivity.
        -- destruct (HU _ _ H) as [-> ->]. unfold thr in H0. rewrite ET in H0. injection H0 as <-. lia.
    + rewrite IH. split.
      * intros (k & z & Hk & Hr & Ho). exists (S k), z. split; [lia|]. split; [|exact Ho]. apply rej_again with z0 b t n; assumption.
      * intros (k & z & Hk & Hr & Ho). inversion Hr; subst.
        -- destruct (HU _ _ H) as [-> ->]. unfold thr in H0. rewrite ET in H0. injection H0 as <-. lia.
        -- destruct (HU _ _ H) as [-> ->]. unfold thr in H0. rewrite ET in H0. injection H0 as <-. rewrite (DU _ H2) in H3.
           exists k0, z. split; [lia|]. split; assumption.
  - unfold ber_exp. rewrite ET. cbn [bind]. split; [discriminate|]. intros (k & z & Hk & Hr & Ho).
    inversion Hr; subst; destruct (HU _ _ H) as [-> ->]; unfold thr in H0; rewrite ET in H0; discriminate.
  - unfold ber_exp. rewrite ET. cbn [bind]. split; [discriminate|]. intros (k & z & Hk & Hr & Ho).
    inversion Hr; subst; destruct (HU _ _ H) as [-> ->]; unfold thr in H0; rewrite ET in H0; discriminate.
Qed.

Lemma rejection_bounds th g k pos z pos' : rejection th g k pos z pos' ->
  (1 <= k /\ pos + 11 * k <= pos' <= pos + 18 * k)%nat /\ -18 <= z <= 19.
Proof.
  induction 1.
  - destruct H as (A & _). destruct H2 as (B & _). split; [lia|]. apply signed_range. exact A.
  - destruct H2 as (B & _). destruct IHrejection. split; [lia|assumption].
Qed.

Lemma samplerz_range fuel mu sigma' sigma_min g pos v pos' : (forall i, byte (g i)) ->
  samplerz F fuel mu sigma' sigma_min g pos = Ok (v, pos') ->
  exists k z, (1 <= k <= fuel)%nat /\ (pos + 11 * k <= pos' <= pos + 18 * k)%nat /\ -18 <= z <= 19 /\ to_i32 F (fadd F (fofz F z) (ffloor F mu)) = Ok v.
Proof.
  intros Hg E. apply samplerz_ok in E; [|exact Hg]. destruct E as (k & z & Hk & Hr & Ho). exists k, z.
  destruct (rejection_bounds _ _ _ _ _ _ Hr) as ((A & B) & C). split; [lia|]. split; [exact B|]. split; [exact C|exact Ho].
Qed.

(** ** the array variants *)
Lemma ber_arr_255 k z m off ridx rblen : (0 < k)%nat -> (off + ridx + k <= m)%nat ->
  exists w n, ber_loop_arr k z (repeat 255 m) off ridx rblen = Ok (w, (ridx + n)%nat) /\ (1 <= n <= k)%nat /\ 0 <= w.
Proof.
  revert ridx. induction k as [|k IH]; intros ridx Hk Hm; [lia|]. cbn [ber_loop_arr].
  rewrite (rd_Ok _ _ 255) by (rewrite repeat_length; lia). rewrite nth_repeat. cbn [bind]. rewrite land255.
  set (w := 255 - _). assert (Hw : 0 <= w) by (unfold w; pose proof (Z.mod_pos_bound (Z.shiftr z (8 * Z.of_nat k)) 256); lia).
  destruct ((w =? 0) && (0 <? 8 * Z.of_nat k) && (S ridx <? rblen)%nat) eqn:E.
  - apply andb_prop in E. destruct E as [E _]. apply andb_prop in E. destruct E as [_ E]. apply Z.ltb_lt in E.
    destruct (IH (S ridx)) as (w' & n & H1 & H2 & H3); [lia|lia|]. exists w', (S n). rewrite H1. split; [do 2 f_equal; lia|]. split; [lia|exact H3].
  - exists w, 1%nat. split; [do 2 f_equal; lia|]. split; [lia|exact Hw].
Qed.

Lemma base_255 : base_sampler (repeat 255 9) = Ok 0.
Proof. vm_compute. reflexivity. Qed.
Lemma rev_repeat {A} (x : A) n : rev (repeat x n) = repeat x n.
Proof. induction n as [|n IH]; [reflexivity|]. cbn [repeat rev]. rewrite IH. clear IH. induction n as [|n IH]; [reflexivity|]. cbn [repeat app]. rewrite IH. reflexivity. Qed.

Lemma samplerz_arr_oob fuel mu sigma' sigma_min : (2 <= fuel)%nat -> samplerz_arr F fuel mu sigma' sigma_min (repeat 255 19) 19 = UB.
Proof.
  intros Hf. destruct fuel as [|[|fuel]]; [lia|lia|]. unfold samplerz_arr. set (rb := repeat 255 19).
  remember (S fuel) as f1 eqn:Ef. cbn [samplerz_arr_loop]. change (0 <? 19)%nat with true. cbv iota.
  change (0 + 9 <=? length rb)%nat with true. cbv iota. cbn [bind].
  change (rev (firstn 9 (skipn 0 rb))) with (repeat 255 9). rewrite base_255. cbn [bind].
  change (rd rb (0 + 9)) with (Ok 255). cbn [bind]. change (Z.land 255 1) with 1. change (S (0 + 9)) with 10%nat.
  unfold ber_exp_arr. destruct (ber_threshold F _ _) as [t| |] eqn:ET; cbn [bind]; try reflexivity.
  - destruct (ber_arr_255 8 t 19 10 0 (19 - 10)) as (w & n & H1 & H2 & H3); [lia|lia|]. unfold rb. rewrite H1. cbn [bind]. fold rb.
    replace (w <? 0) with false by (symmetry; apply Z.ltb_ge; exact H3). cbn [b2z Z.eqb].
    subst f1. cbn [samplerz_arr_loop]. replace (10 + (0 + n) <? 19)%nat with true by (symmetry; apply Nat.ltb_lt; lia).
    replace (10 + (0 + n) + 9 <=? length rb)%nat with false; [reflexivity|]. symmetry. apply Nat.leb_gt. unfold rb. rewrite repeat_length. lia.
  - destruct (threshold_no_fuel _ _ ET).
Qed.
End Any.
