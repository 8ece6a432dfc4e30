(** P_fsafe64.v -- signing in IEEE 754 binary64: instances of P_fsafek. *)
From Verif Require Import Base Ring Poly Spec SpecR SpecF M_ff M_ntt M_codec M_sig M_verify M_float M_exact M_ieee M_table M_samp M_fft M_ntru M_tree P_ieee P_near P_signx.
From Verif Require P_fsamp P_ftreek P_ftree64 P_fsafek P_fgsx P_keygen P_keys P_exact P_sigx.
From Coq Require Import Lra.
Open Scope R_scope.

Lemma P_abs x y : Rabs x <= y -> - y <= x <= y.
Proof. intros H. assert (G := Rle_abs x). assert (G' := Rle_abs (- x)). rewrite Rabs_Ropp in G'. lra. Qed.
Lemma smin64 lg : falcon_lg lg -> fin64 (sigma_min F64 lg) /\ 127 / 100 <= val64 (sigma_min F64 lg) <= 13 / 10.
Proof.
  intros [->| ->]; unfold sigma_min; cbn [Nat.eqb].
  - destruct (P_ftreek.lit9 F64 fin64 val64 accurate64 1277833697 ltac:(lia)) as [F1 E]. split; [exact F1|]. destruct (P_abs _ _ E) as [G1 G2]. lra.
  - destruct (P_ftreek.lit9 F64 fin64 val64 accurate64 1298280334 ltac:(lia)) as [F1 E]. split; [exact F1|]. destruct (P_abs _ _ E) as [G1 G2]. lra.
Qed.
Lemma sampler64 lg : falcon_lg lg -> forall fuel mu s rng pos, byte_stream rng -> fin64 mu -> fin64 s -> 127 / 100 <= val64 s <= 179 / 100 -> Rabs (val64 mu) <= 2147480000 ->
  samplerz F64 fuel mu s (sigma_min F64 lg) rng pos <> UB /\ forall v pos', samplerz F64 fuel mu s (sigma_min F64 lg) rng pos = Ok (v, pos') -> Rabs (IZR v - val64 mu) <= 19.
Proof.
  intros Hlg fuel mu s rng pos Hr Fm Fs Hs Hm. destruct (smin64 lg Hlg) as [F1 B1].
  assert (Hf : (Z.abs (Rfloor (val64 mu)) <= 2147483000)%Z).
  { assert (P := P_exact.Rfloor_spec (val64 mu)). assert (G := Rle_abs (val64 mu)). assert (G' := Rle_abs (- val64 mu)). rewrite Rabs_Ropp in G'.
    assert (U : IZR (Rfloor (val64 mu)) <= 2147480000) by lra. apply le_IZR in U. assert (L : -2147480001 <= IZR (Rfloor (val64 mu))) by lra. apply le_IZR in L. lia. }
  split.
  - apply P_fsamp.samplerz_64_no_ub; try assumption; lra.
  - intros v pos' E. apply (P_fsamp.samplerz_64_near mu s _ fuel rng pos v pos' Fm Hf Hr E).
Qed.

Lemma sign_bt64 lg f g F_ G_ : falcon_lg lg ->
  length f = (2 ^ lg)%nat -> length g = (2 ^ lg)%nat -> length F_ = (2 ^ lg)%nat -> length G_ = (2 ^ lg)%nat -> ntru (2 ^ lg) f g F_ G_ -> gs_norm lg f g <= 168224122 / 10000 ->
  (sqnorm F_ <= 16777216)%Z -> (sqnorm G_ <= 16777216)%Z -> forall xof fuel sfuel B T0 T msg sig rng pos, (forall a, byte_stream (xof a)) -> byte_stream rng ->
  (sig_bytes lg <= length sig)%nat -> ((lg + 1) * 2 ^ lg <= length T0)%nat ->
  compute_matrix_B F64 (source_table F64) lg f g F_ G_ = Ok B -> compute_falcon_tree F64 (source_table F64) lg B T0 = Ok T ->
  sign_bt F64 (source_table F64) fuel sfuel xof lg B T msg sig rng pos <> UB.
Proof.
  intros Hlg Lf Lg LF LG HN HGS SF SG xof fuel sfuel B T0 T msg sig rng pos.
  exact (P_fsafek.sign_bt_safe F64 fin64 val64 accurate64 P_ftree64.realness64 _ (source_near _ _ _ accurate64) lg Hlg (sampler64 lg Hlg) f g F_ G_ Lf Lg LF LG HN HGS SF SG xof fuel sfuel B T0 T msg sig rng pos).
Qed.
Lemma sign64 lg f g F_ G_ : falcon_lg lg ->
  length f = (2 ^ lg)%nat -> length g = (2 ^ lg)%nat -> length F_ = (2 ^ lg)%nat -> length G_ = (2 ^ lg)%nat -> ntru (2 ^ lg) f g F_ G_ -> gs_norm lg f g <= 168224122 / 10000 ->
  (sqnorm F_ <= 16777216)%Z -> (sqnorm G_ <= 16777216)%Z -> values_ge lg f (1 / 1000) -> forall xof fuel sfuel skey msg sig rng, (forall a, byte_stream (xof a)) -> byte_stream rng ->
  (sig_bytes lg <= length sig)%nat ->
  decode_skey lg skey (repeat 0%Z (2 ^ lg)) (repeat 0%Z (2 ^ lg)) (repeat 0%Z (2 ^ lg)) = Ok (true, (f, g, F_)) ->
  sign F64 (source_table F64) fuel sfuel xof lg skey msg sig rng <> UB.
Proof.
  intros Hlg Lf Lg LF LG HN HGS SF SG Hv xof fuel sfuel skey msg sig rng Hx Hr Ls HD.
  exact (P_fsafek.sign_safe F64 fin64 val64 accurate64 P_ftree64.realness64 _ (source_near _ _ _ accurate64) lg Hlg (sampler64 lg Hlg) f g F_ G_ Lf Lg LF LG HN HGS SF SG xof fuel sfuel skey msg sig rng Hx Hr Ls Hv HD).
Qed.

Lemma fits_sq lg l : falcon_lg lg -> length l = (2 ^ lg)%nat -> Forall (fits 256) l -> (sqnorm l <= 16777216)%Z.
Proof.
  intros Hlg L H. assert (G : (sqnorm l <= 16384 * Z.of_nat (length l))%Z).
  { clear L. induction H as [|x l Hx Hl IH]; [reflexivity|]. unfold fits in Hx. change (256 / 2)%Z with 128%Z in Hx. cbn [length]. rewrite Nat2Z.inj_succ.
    assert (E : sqnorm (x :: l) = (x * x + sqnorm l)%Z) by reflexivity. rewrite E. nia. }
  rewrite L in G. destruct Hlg as [->| ->]; [change (Z.of_nat (2 ^ 9)) with 512%Z in G|change (Z.of_nat (2 ^ 10)) with 1024%Z in G]; lia.
Qed.
Lemma keygen_sign64 fk sfk fuel sfuel lg rngk rng pk0 sk0 pk sk xof msg sig f g F_ G_ p : falcon_lg lg ->
  (forall a, byte_stream (xof a)) -> byte_stream rngk -> byte_stream rng ->
  length pk0 = pkey_len lg -> length sk0 = skey_len lg -> (sig_bytes lg <= length sig)%nat ->
  keygen_bytes F64 (source_table F64) fk sfk lg pk0 sk0 rngk = Ok (pk, sk) ->
  ntru_gen F64 (source_table F64) fk sfk lg rngk 0 (repeat 0%Z (2 ^ lg)) (repeat 0%Z (2 ^ lg)) (repeat 0%Z (2 ^ lg)) (repeat 0%Z (2 ^ lg)) = Ok (f, g, F_, G_, p) ->
  Forall (fits (skey_modulus lg)) f -> Forall (fits (skey_modulus lg)) g -> Forall (fits 256) F_ -> (sqnorm G_ <= 16777216)%Z -> values_ge lg f (1 / 1000) ->
  sign F64 (source_table F64) fuel sfuel xof lg sk msg sig rng <> UB.
Proof.
  intros Hlg Hx Hk Hr Lpk Lsk Ls HK HG Ff Fg FF SG Hv.
  destruct (P_fgsx.gen_gs_float F64 fin64 val64 accurate64 P_keygen.small_exact_F64 _ (source_near _ _ _ accurate64) fk sfk lg rngk 0 _ _ _ _ f g F_ G_ p Hk Hlg (repeat_length _ _) (repeat_length _ _) (repeat_length _ _) (repeat_length _ _) HG) as [_ GS].
  destruct (P_keygen.ntru_gen_spec F64 (source_table F64) fk sfk lg rngk 0 _ _ _ _ f g F_ G_ p P_keygen.small_exact_F64 Hk Hlg (repeat_length _ _) (repeat_length _ _) (repeat_length _ _) (repeat_length _ _) HG)
    as (Lf & Lg & LF & LG & _ & _ & _ & _ & HN).
  assert (BF : Forall (fun x => Z.abs x <= 27000)%Z F_). { refine (Forall_impl _ _ FF). intros x Hf. unfold fits in Hf. change (256 / 2)%Z with 128%Z in Hf. lia. }
  assert (BG : Forall (fun x => Z.abs x <= 27000)%Z G_). { apply Forall_forall. intros x Hi. apply (sqnorm_coeff G_ x) in Hi. nia. }
  assert (HNT : ntru (2 ^ lg) f g F_ G_) by (apply HN; assumption). specialize (GS HNT).
  unfold keygen_bytes in HK. rewrite HG in HK. cbn [bind] in HK.
  apply bind_Ok in HK. destruct HK as [h [Eh HK]]. apply bind_Ok in HK. destruct HK as [pk' [Epk HK]]. apply bind_Ok in HK. destruct HK as [sk' [Esk HK]].
  assert (sk' = sk) by congruence. subst sk'.
  destruct (P_keys.skey_round lg f g F_ sk0 (repeat 0%Z (2 ^ lg)) (repeat 0%Z (2 ^ lg)) (repeat 0%Z (2 ^ lg)) Hlg Lf Lg LF Lsk (repeat_length _ _) (repeat_length _ _) (repeat_length _ _)) as [s [Es [_ [_ [_ Ds]]]]].
  assert (s = sk) by congruence. subst s.
  apply (sign64 lg f g F_ G_ Hlg Lf Lg LF LG HNT GS (fits_sq lg F_ Hlg LF FF) SG Hv xof fuel sfuel sk msg sig rng Hx Hr Ls). apply Ds; auto.
Qed.
