(** P_keygen.v -- the output of ntru_gen and keygen in terms of the specification. *)
From Verif Require Import Base Ring Poly Spec M_ff M_xform P_xform M_ntt P_ntt P_nttx M_codec P_codec P_keys M_float M_samp P_samp P_sampz M_fft M_ntru P_ntru P_ntru2 M_exact M_ieee P_exact M_sig M_verify M_tree.
Open Scope Z_scope.

(** ** bounds and congruences of negacyclic products *)
Lemma nth_negacyclic n a b k : (k < n)%nat -> nth k (negacyclic n a b) 0 =
  zsum n (fun i => nth i a 0 * (if Nat.leb i k then nth (k - i) b 0 else - nth (n + k - i) b 0)).
Proof. intros Hk. unfold negacyclic. rewrite nth_tab by exact Hk. reflexivity. Qed.

Lemma zsum_abs_bound n f B : (forall i, (i < n)%nat -> Z.abs (f i) <= B) -> Z.abs (zsum n f) <= Z.of_nat n * B.
Proof.
  induction n as [|n IH]; intros H; [simpl; lia|]. cbn [zsum].
  assert (H1 := IH (fun i Hi => H i (Nat.lt_lt_succ_r _ _ Hi))). assert (H2 := H n (Nat.lt_succ_diag_r n)). clear IH H. nia.
Qed.

Lemma nth_abs_bound (a : list Z) B i : 0 <= B -> Forall (fun x => Z.abs x <= B) a -> Z.abs (nth i a 0) <= B.
Proof.
  intros HB H. destruct (Nat.lt_ge_cases i (length a)) as [Hi|Hi].
  - rewrite Forall_forall in H. apply H, nth_In, Hi.
  - rewrite nth_overflow by exact Hi. simpl. exact HB.
Qed.

Lemma negacyclic_bound n a b A B k : (k < n)%nat -> 0 <= A -> 0 <= B -> Forall (fun x => Z.abs x <= A) a -> Forall (fun x => Z.abs x <= B) b ->
  Z.abs (nth k (negacyclic n a b) 0) <= Z.of_nat n * (A * B).
Proof.
  intros Hk HA HB Ha Hb. rewrite nth_negacyclic by exact Hk. apply zsum_abs_bound. intros i Hi.
  rewrite Z.abs_mul. apply Z.mul_le_mono_nonneg; [apply Z.abs_nonneg|apply nth_abs_bound; assumption|apply Z.abs_nonneg|].
  destruct (Nat.leb i k); [|rewrite Z.abs_opp]; apply nth_abs_bound; assumption.
Qed.

Lemma zsum_divide n f m : (forall i, (i < n)%nat -> (m | f i)) -> (m | zsum n f).
Proof.
  induction n as [|n IH]; intros H; [apply Z.divide_0_r|]. cbn [zsum]. apply Z.divide_add_r; [apply IH; intros i Hi|]; apply H; lia.
Qed.
Lemma zsum_sub n f g : zsum n f - zsum n g = zsum n (fun i => f i - g i).
Proof. induction n as [|n IH]; [reflexivity|]. cbn [zsum]. rewrite <- IH. ring. Qed.

Lemma negacyclic_cong n a b b' m k : (k < n)%nat -> (forall i, (m | nth i b 0 - nth i b' 0)) ->
  (m | nth k (negacyclic n a b) 0 - nth k (negacyclic n a b') 0).
Proof.
  intros Hk H. rewrite !nth_negacyclic by exact Hk. rewrite zsum_sub. apply zsum_divide. intros i Hi.
  destruct (Nat.leb i k).
  - rewrite <- Z.mul_sub_distr_l. apply Z.divide_mul_r, H.
  - replace (nth i a 0 * - nth (n + k - i) b 0 - nth i a 0 * - nth (n + k - i) b' 0)
      with (- nth i a 0 * (nth (n + k - i) b 0 - nth (n + k - i) b' 0)) by ring. apply Z.divide_mul_r, H.
Qed.

Definition cast (l : list Z) : list Z := map (fun x => i32 (get_si x)) l.
Lemma cast_nth l i : nth i (cast l) 0 = i32 (get_si (nth i l 0)).
Proof. unfold cast. change 0 with (i32 (get_si 0)) at 1. exact (map_nth (fun x => i32 (get_si x)) l 0 i). Qed.
Lemma cast_length l : length (cast l) = length l. Proof. apply map_length. Qed.
Lemma cast_cong l i : (2 ^ 32 | nth i (cast l) 0 - nth i l 0).
Proof. rewrite cast_nth. apply Z.mod_divide; [lia|]. apply get_si_mod. Qed.
Lemma cast_id l : Forall (fun x => -2147483648 <= x < 2147483648) l -> cast l = l.
Proof. unfold cast. induction 1 as [|x l Hx Hl IH]; [reflexivity|]. cbn [map]. rewrite get_si_id by exact Hx. f_equal; exact IH. Qed.
Lemma cast_range l : Forall (fun x => -2147483648 <= x < 2147483648) (cast l).
Proof. unfold cast. apply Forall_map. apply Forall_forall. intros x _. unfold i32. pose proof (Z.mod_pos_bound (get_si x + 2147483648) 4294967296). lia. Qed.

(** The equation holds modulo 2^32 whatever was cut off by the conversion to int32_t; with small
    coefficients it holds exactly. *)
Lemma ntru_cast_mod n f g F_ G_ : ntru n f g F_ G_ -> forall k, (k < n)%nat ->
  (2 ^ 32 | nth k (negacyclic n f (cast G_)) 0 - nth k (negacyclic n g (cast F_)) 0 - (if Nat.eqb k 0 then q else 0)).
Proof.
  intros H k Hk. rewrite <- (H k Hk).
  destruct (negacyclic_cong n f (cast G_) G_ (2 ^ 32) k Hk (cast_cong G_)) as [u Hu].
  destruct (negacyclic_cong n g (cast F_) F_ (2 ^ 32) k Hk (cast_cong F_)) as [v Hv].
  exists (u - v). rewrite Z.mul_sub_distr_r, <- Hu, <- Hv. ring.
Qed.

Lemma ntru_cast_exact lg f g F_ G_ : falcon_lg lg -> Forall (coeff_bound lg) f -> Forall (coeff_bound lg) g -> ntru (2 ^ lg) f g F_ G_ ->
  Forall (fun x => Z.abs x <= 27000) (cast F_) -> Forall (fun x => Z.abs x <= 27000) (cast G_) ->
  ntru (2 ^ lg) f g (cast F_) (cast G_).
Proof.
  intros Hlg Hf Hg H HF HG k Hk. destruct (ntru_cast_mod _ _ _ _ _ H k Hk) as [w Hw].
  assert (E : exists A, 0 <= A /\ Z.of_nat (2 ^ lg) * (A * 27000) = 2101248000 /\ forall x, coeff_bound lg x -> Z.abs x <= A).
  { exists (19 * (4096 / 2 ^ Z.of_nat lg)).
    destruct Hlg as [-> | ->]; unfold coeff_bound; simpl Z.of_nat;
    [change (4096 / 2 ^ 9) with 8; change (Z.of_nat (2 ^ 9)) with 512|change (4096 / 2 ^ 10) with 4; change (Z.of_nat (2 ^ 10)) with 1024];
    (split; [lia|split; [reflexivity|intros; lia]]). }
  destruct E as [A [HA [HE HB]]].
  assert (B1 := negacyclic_bound _ f (cast G_) A 27000 k Hk HA ltac:(lia) (Forall_impl _ HB Hf) HG).
  assert (B2 := negacyclic_bound _ g (cast F_) A 27000 k Hk HA ltac:(lia) (Forall_impl _ HB Hg) HF).
  rewrite HE in B1, B2. clear HE.
  assert (Hq : 0 <= (if Nat.eqb k 0 then q else 0) <= 12289) by (destruct (Nat.eqb k 0); unfold q; lia).
  assert (w = 0) by (change (2 ^ 32) with 4294967296 in Hw; clear - Hw B1 B2 Hq; lia). subst w. lia.
Qed.

Section Keygen.
Variable F : fops.
Variable ztab : list (D F * D F).

(** ntru_gen *)
Theorem ntru_gen_spec fuel sfuel lg rng pos f0 g0 F0 G0 f g F_ G_ pos' :
  small_exact F -> byte_stream rng -> falcon_lg lg ->
  length f0 = (2 ^ lg)%nat -> length g0 = (2 ^ lg)%nat -> length F0 = (2 ^ lg)%nat -> length G0 = (2 ^ lg)%nat ->
  ntru_gen F ztab fuel sfuel lg rng pos f0 g0 F0 G0 = Ok (f, g, F_, G_, pos') ->
  length f = (2 ^ lg)%nat /\ length g = (2 ^ lg)%nat /\ length F_ = (2 ^ lg)%nat /\ length G_ = (2 ^ lg)%nat /\
  Forall (fun x => -18 * (4096 / 2 ^ Z.of_nat lg) <= x <= 19 * (4096 / 2 ^ Z.of_nat lg)) f /\
  Forall (fun x => -18 * (4096 / 2 ^ Z.of_nat lg) <= x <= 19 * (4096 / 2 ^ Z.of_nat lg)) g /\
  (exists fi, length fi = (2 ^ lg)%nat /\ modq (negacyclic (2 ^ lg) f fi) = onep (2 ^ lg)) /\
  (forall k, (k < 2 ^ lg)%nat ->
    (2 ^ 32 | nth k (negacyclic (2 ^ lg) f G_) 0 - nth k (negacyclic (2 ^ lg) g F_) 0 - (if Nat.eqb k 0 then q else 0))) /\
  (Forall (fun x => Z.abs x <= 27000) F_ -> Forall (fun x => Z.abs x <= 27000) G_ -> ntru (2 ^ lg) f g F_ G_).
Proof.
  intros Hs Hg Hlg L1 L2 L3 L4 H. apply ntru_gen_ok in H; try assumption.
  destruct H as [Lf [Lg [Bf [Bg [Ei [_ [F' [G' [LF [LG [Hn [-> ->]]]]]]]]]]]].
  fold (cast F') (cast G').
  split; [exact Lf|]. split; [exact Lg|]. split; [rewrite cast_length; exact LF|]. split; [rewrite cast_length; exact LG|].
  split; [exact Bf|]. split; [exact Bg|].
  split. { destruct (is_poly_invertible_spec lg f Hlg Lf) as [b [Eb Hb]].
    { apply (Forall_impl _ (fun x Hx => proj1 (coeff_small lg x Hlg Hx)) Bf). }
    rewrite Eb in Ei. injection Ei as ->. apply Hb; reflexivity. }
  split; [apply ntru_cast_mod; exact Hn|]. intros HF HG. apply ntru_cast_exact; assumption.
Qed.

(** keygen *)
Theorem keygen_spec fuel sfuel lg rng pk0 sk0 pk sk (h0 f0 g0 F0 : list Z) :
  small_exact F -> byte_stream rng -> falcon_lg lg ->
  length pk0 = pkey_len lg -> length sk0 = skey_len lg ->
  length h0 = (2 ^ lg)%nat -> length f0 = (2 ^ lg)%nat -> length g0 = (2 ^ lg)%nat -> length F0 = (2 ^ lg)%nat ->
  keygen_bytes F ztab fuel sfuel lg pk0 sk0 rng = Ok (pk, sk) ->
  length pk = pkey_len lg /\ bytes pk /\ nth 0 pk 0 = Z.of_nat lg /\
  length sk = skey_len lg /\ bytes sk /\ nth 0 sk 0 = 80 + Z.of_nat lg /\
  exists f g F_ G_ pos' h,
    ntru_gen F ztab fuel sfuel lg rng 0 (repeat 0 (2 ^ lg)) (repeat 0 (2 ^ lg)) (repeat 0 (2 ^ lg)) (repeat 0 (2 ^ lg)) = Ok (f, g, F_, G_, pos') /\
    decode_pkey lg pk h0 = Ok (true, h) /\ Forall canon h /\ modq (negacyclic (2 ^ lg) h f) = modq g /\
    (decode_skey lg sk f0 g0 F0 = Ok (true, (f, g, F_)) <->
      Forall (fits (skey_modulus lg)) f /\ Forall (fits (skey_modulus lg)) g /\ Forall (fits 256) F_).
Proof.
  intros Hs Hg Hlg Lpk Lsk Lh0 Lf0 Lg0 LF0 H. unfold keygen_bytes in H.
  apply bind_Ok in H. destruct H as [[[[[f g] F_] G_] pos'] [E H]].
  pose proof E as E0. apply ntru_gen_ok in E0; try assumption; try apply repeat_length.
  destruct E0 as [Lf [Lg [Bf [Bg [Ei [_ [F' [G' [LF [LG [Hn [EF EG]]]]]]]]]]]].
  assert (LF_ : length F_ = (2 ^ lg)%nat) by (rewrite EF, map_length; exact LF).
  assert (Sf : Forall smallq f) by exact (Forall_impl _ (fun x Hx => proj1 (coeff_small lg x Hlg Hx)) Bf).
  assert (Sg : Forall smallq g) by exact (Forall_impl _ (fun x Hx => proj1 (coeff_small lg x Hlg Hx)) Bg).
  destruct (public_key_spec lg f g (repeat 0 (2 ^ lg)) Hlg Lf Lg (repeat_length _ _) Sf Sg Ei) as [h [Eh [Lh [Ch [Hh _]]]]].
  rewrite Eh in H. cbn [bind] in H.
  destruct (pk_round lg h pk0 h0 Hlg Lh) as [e [Ee [Le [Be [He De]]]]]; try assumption.
  { apply (Forall_impl _ (fun x (Hx : canon x) => ltac:(unfold canon, lt14, q in *; lia) : lt14 x) Ch). }
  rewrite Ee in H. cbn [bind] in H.
  destruct (skey_round lg f g F_ sk0 f0 g0 F0 Hlg Lf Lg LF_ Lsk Lf0 Lg0 LF0) as [s [Es [Ls [Bs [Hs1 Ds]]]]].
  rewrite Es in H. cbn [bind] in H. injection H as <- <-.
  split; [exact Le|]. split; [exact Be|]. split; [exact He|]. split; [exact Ls|]. split; [exact Bs|]. split; [exact Hs1|].
  exists f, g, F_, G_, pos', h. split; [exact E|]. split; [exact De|]. split; [exact Ch|]. split; [exact Hh|exact Ds].
Qed.
End Keygen.

(** ** statements on coefficient lists for T_ntru *)
Lemma xgcd_total x y : exists a b g, (forall fuel, (Z.to_nat (Z.abs y) <= fuel)%nat -> xgcd fuel x y = Ok (a, b, g)) /\
  a * x + b * y = g /\ Z.abs g = Z.gcd x y.
Proof.
  destruct (xgcd_loop_ok x y (Z.to_nat (Z.abs y)) x y 1 0 0 1) as [a [b [g [E [B G]]]]]; try lia.
  exists a, b, g. split; [|split; assumption]. intros fuel Hf. apply (xgcd_loop_mono _ fuel) in E; [exact E|exact Hf].
Qed.

Lemma karatsuba_spec lg a b : length a = (2 ^ lg)%nat -> length b = (2 ^ lg)%nat ->
  exists c, karatsuba lg a b = Ok c /\ length c = (2 * 2 ^ lg)%nat /\
    forall k, (k < 2 * 2 ^ lg)%nat -> nth k c 0 = prodcoef (2 ^ lg) a b k.
Proof.
  intros La Lb. eexists. split; [apply karatsuba_ok; assumption|]. split; [apply tab_length|].
  intros k Hk. rewrite nth_tab by exact Hk. reflexivity.
Qed.
Lemma karamul_spec lg a b : length a = (2 ^ lg)%nat -> length b = (2 ^ lg)%nat -> karamul lg a b = Ok (negacyclic (2 ^ lg) a b).
Proof. intros La Lb. rewrite negacyclic_zmul. apply karamul_ok; assumption. Qed.

Lemma lift_spec lg a : length a = (2 ^ lg)%nat -> M_ntru.lift lg a = Ok (at_x_squared (2 ^ lg) a).
Proof.
  intros La. rewrite lift_ok by exact La. f_equal. unfold plift, at_x_squared. cbn [pl mkp]. apply tab_ext. intros k Hk.
  destruct (parity_case k) as [m [-> | ->]].
  - rewrite evenb2, half2. apply pc_ofl. lia.
  - rewrite evenb21. reflexivity.
Qed.
Lemma galois_spec lg a : length a = (2 ^ lg)%nat -> galois_conjugate lg a = Ok (at_minus_x (2 ^ lg) a).
Proof.
  intros La. rewrite galois_ok by exact La. f_equal. unfold pconj, at_minus_x. cbn [pl mkp]. apply tab_ext. intros k Hk.
  rewrite pc_ofl by exact Hk. reflexivity.
Qed.
Lemma field_norm_spec lg a : length a = (2 ^ S lg)%nat ->
  exists n, field_norm (S lg) a = Ok n /\ length n = (2 ^ lg)%nat /\
    at_x_squared (2 ^ lg) n = negacyclic (2 ^ S lg) a (at_minus_x (2 ^ S lg) a).
Proof.
  intros La. eexists. split; [apply field_norm_ok; exact La|]. split; [apply pl_length|].
  rewrite norm_rec by exact La. apply (list_ext 0); [unfold at_x_squared; rewrite tab_length, negacyclic_length; reflexivity|].
  unfold at_x_squared. rewrite tab_length. intros k Hk. rewrite nth_tab by exact Hk.
  change (2 ^ S lg)%nat with (2 * 2 ^ lg)%nat in *. set (n := (2 ^ lg)%nat) in *.
  assert (E : negacyclic (2 * n) a (at_minus_x (2 * n) a) = pl Z (2 * n) (plift Z 0 (znorm (zof (2 * n) a)))).
  { rewrite (pnorm_lift _ _ _ _ _ _ _ Zth') by (unfold n; apply pow2_pos). rewrite negacyclic_zmul. f_equal. f_equal.
    apply (pv_ext Z 0). intros j Hj. unfold pconj, at_minus_x. rewrite pc_mkp, !pc_ofl, nth_tab by exact Hj. reflexivity. }
  rewrite E. destruct (parity_case k) as [m [-> | ->]].
  - rewrite evenb2, half2. rewrite nth_tab by lia. reflexivity.
  - rewrite evenb21. unfold plift. cbn [pl mkp]. rewrite nth_tab by exact Hk. rewrite evenb21. reflexivity.
Qed.
Lemma lift_mult lg a b : length a = (2 ^ lg)%nat -> length b = (2 ^ lg)%nat ->
  at_x_squared (2 ^ lg) (negacyclic (2 ^ lg) a b) = negacyclic (2 ^ S lg) (at_x_squared (2 ^ lg) a) (at_x_squared (2 ^ lg) b).
Proof.
  intros La Lb. change (2 ^ S lg)%nat with (2 * 2 ^ lg)%nat in *. set (n := (2 ^ lg)%nat) in *.
  assert (E : forall a, length a = n -> zof (2 * n) (at_x_squared n a) = plift Z 0 (zof n a)).
  { intros c Lc. apply (pv_ext Z 0). intros k Hk. unfold plift, at_x_squared. rewrite pc_ofl, nth_tab, pc_mkp by exact Hk.
    destruct (parity_case k) as [m [-> | ->]]; [rewrite evenb2, half2, pc_ofl by lia|rewrite evenb21]; reflexivity. }
  rewrite !negacyclic_zmul, !E by assumption. rewrite <- (plift_mul _ _ _ _ _ _ _ Zth').
  unfold plift at 1, at_x_squared. cbn [pl mkp]. apply tab_ext. intros k Hk. destruct (Nat.even k); reflexivity.
Qed.

(** the hypothesis small_exact in IEEE and in exact arithmetic *)
Lemma small_exact_F64 : small_exact F64.
Proof.
  intros z Hz. assert (E : exists k, (k < 38)%nat /\ z = Z.of_nat k - 18) by (exists (Z.to_nat (z + 18)); lia).
  destruct E as [k [Hk ->]]. do 38 (destruct k as [|k]; [vm_compute; reflexivity|]). lia.
Qed.
Lemma small_exact_RF : small_exact RF.
Proof.
  assert (E : Rfloor (IZR 0) = 0) by apply Rfloor_IZR.
  intros z Hz. change (fofz RF 0) with (IZR 0). rewrite to_i32_R by (rewrite ?E; lia). rewrite E. f_equal.
Qed.
