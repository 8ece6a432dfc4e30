(** P_signv.v -- signatures produced by sign in exact arithmetic are accepted by verify. *)
From Verif Require Import Base Poly Spec SpecR M_ff M_ntt M_codec P_codec P_keys M_sig P_comp P_sigx P_decomp M_verify M_float M_exact M_samp M_fft M_ntru P_ntru M_tree P_tree P_treex P_signb P_signx.
From Verif Require P_keygen P_sig P_ntt P_nttx P_verify P_verifyx.
Open Scope Z_scope.

Lemma round_poly_length F lg p out r : round_poly F lg p out = Ok r -> length r = length out.
Proof.
  intros H. unfold round_poly in H. apply forn_len in H; [exact H|]. intros i s s' Hs.
  apply bind_Ok in Hs. destruct Hs as [x [_ Hs]]. apply bind_Ok in Hs. destruct Hs as [y [_ Hs]]. apply wr_len in Hs. exact Hs.
Qed.
(** the layout of a signature *)
Lemma sign_layout F zt fuel sfuel xof lg B T msg sig g pos sig' pos' : falcon_lg lg -> (sig_bytes lg <= length sig)%nat ->
  sign_bt F zt fuel sfuel xof lg B T msg sig g pos = Ok (sig', pos') ->
  let salt := map (fun i => g (pos + i)%nat) (seq 0 40) in
  exists c t0 t1 s2 body, hash_to_point sfuel xof lg salt msg (repeat 0 (2 ^ lg)) = Ok c /\ sign_target F zt lg B c = Ok (t0, t1) /\
    accepted F zt sfuel lg B T t0 t1 (sigma_min F lg) (beta2 lg) g pos' s2 /\ length s2 = (2 ^ lg)%nat /\
    length body = (sig_bytes lg - 41)%nat /\ bytes body /\ tot s2 < body_len lg /\
    bits_of body = encs s2 ++ repeat false (Z.to_nat (body_len lg - tot s2)) /\
    sig' = (48 + Z.of_nat lg :: salt) ++ body ++ skipn (sig_bytes lg) sig.
Proof.
  intros Hlg Ls H salt. destruct (sign_bt_inv F zt _ _ _ _ _ _ _ _ _ _ _ _ Hlg Ls H) as (c & t0 & t1 & s2 & body & H1 & H2 & A & Lb & HB & E). fold salt in H1, E.
  destruct (sig_dims lg Hlg) as (D1 & D2 & _).
  assert (L2 : length s2 = (2 ^ lg)%nat). { destruct A as (? & ? & ? & ? & ? & ? & ? & ? & _ & _ & _ & _ & _ & _ & R). apply round_poly_length in R. rewrite R. apply repeat_length. }
  set (buf := repeat 0 (sig_bytes lg)). assert (Lbuf : length buf = sig_bytes lg) by apply repeat_length.
  assert (C := HB buf ltac:(lia)). rewrite skipn_all2 in C by lia. rewrite app_nil_r in C.
  destruct (compress_ok lg s2 buf Hlg L2 ltac:(lia)) as [K1 K2].
  destruct (Z_lt_ge_dec (14 * 2 ^ Z.of_nat lg) (tot s2)) as [Gt|Le]; [rewrite K2 in C by exact Gt; discriminate|].
  destruct K1 as (body' & E' & B' & L' & K & _); [lia|]. rewrite E' in C.
  assert (Tt : (tot s2 <? body_len lg) = true) by congruence. apply Z.ltb_lt in Tt.
  assert (Eb : body' = body). { assert (X : firstn 41 buf ++ body' = firstn 41 buf ++ body) by congruence. apply app_inv_head in X. exact X. }
  subst body'. exists c, t0, t1, s2, body. repeat (split; [assumption|]). split; [apply K; exact Tt|]. exact E.
Qed.

Section Key.
Variable lg : nat.
Hypothesis Hlg : falcon_lg lg.
Notation N := (2 ^ lg)%nat.
Variables f g F_ G_ : list Z.
Hypothesis Lf : length f = N.
Hypothesis Lg : length g = N.
Hypothesis LF : length F_ = N.
Hypothesis LG : length G_ = N.
Hypothesis HN : ntru N f g F_ G_.
Variable xof : list Z -> nat -> Z.
Hypothesis Hx : forall a, byte_stream (xof a).
Lemma lg10 : (lg <= 10)%nat.
Proof. destruct Hlg as [->| ->]; lia. Qed.

(** the run of sign(B, T, msg) *)
Lemma sign_bt_vector fuel sfuel B T msg sig rng pos sig' pos' : (sig_bytes lg <= length sig)%nat ->
  compute_matrix_B RF exact_table lg f g F_ G_ = Ok B ->
  sign_bt RF exact_table fuel sfuel xof lg B T msg sig rng pos = Ok (sig', pos') ->
  let salt := map (fun i => rng (pos + i)%nat) (seq 0 40) in
  exists c z0 z1 s1 s2 body, hashed (xof (salt ++ msg)) lg c /\ length z0 = N /\ length z1 = N /\
    s1 = psub N (psub N c (negacyclic N z0 g)) (negacyclic N z1 G_) /\ s2 = padd N (negacyclic N z0 f) (negacyclic N z1 F_) /\
    sqnorm s1 + sqnorm s2 <= beta2 lg /\
    length body = (sig_bytes lg - 41)%nat /\ bytes body /\ tot s2 < body_len lg /\
    bits_of body = encs s2 ++ repeat false (Z.to_nat (body_len lg - tot s2)) /\
    sig' = (48 + Z.of_nat lg :: salt) ++ body ++ skipn (sig_bytes lg) sig.
Proof.
  intros Ls HB H salt. rewrite (matrix_B_ok lg lg10 f g F_ G_ Lf Lg LF LG) in HB. apply (f_equal (fun r => match r with Ok v => v | _ => [] end)) in HB. cbv beta iota in HB. subst B.
  destruct (sign_layout _ _ _ _ _ _ _ _ _ _ _ _ _ _ Hlg Ls H) as (c & t0 & t1 & s2 & body & H1 & H2 & A & L2 & Lb & Bb & Tt & Kb & E). fold salt in H1, E.
  assert (Hc := P_verifyx.hash_hashed sfuel xof lg salt msg _ c (Hx _) (repeat_length _ _) H1).
  assert (Lc : length c = N) by apply (P_verifyx.hashed_facts _ _ _ Hc).
  destruct (accepted_exact lg lg10 f g F_ G_ Lf Lg LF LG HN _ _ _ _ (beta2 lg) _ _ _ _ _ Lc ltac:(destruct Hlg as [->| ->]; vm_compute; congruence) H2 A) as (z0 & z1 & L0 & L1 & E2 & B2).
  exists c, z0, z1, (psub N (psub N c (negacyclic N z0 g)) (negacyclic N z1 G_)), s2, body. repeat (split; [assumption || reflexivity|]). exact E.
Qed.

(** ... is accepted under the key h = g / f *)
Hypothesis Sf : Forall smallq f.
Hypothesis Sg : Forall smallq g.
Hypothesis HI : is_poly_invertible lg f = Ok true.
Lemma salt_facts (rng : nat -> Z) pos : byte_stream rng -> let salt := map (fun i => rng (pos + i)%nat) (seq 0 40) in length salt = 40%nat /\ bytes salt.
Proof.
  intros Hr salt. split; [unfold salt; rewrite map_length, seq_length; reflexivity|]. unfold bytes, salt. rewrite Forall_forall. intros x Hin.
  apply in_map_iff in Hin. destruct Hin as [i [<- _]]. apply Hr.
Qed.
Lemma invertible_unit : exists fi, length fi = N /\ modq (negacyclic N f fi) = onep N.
Proof.
  apply (proj1 (P_ntt.invertible_iff lg f Hlg Lf)). destruct (P_ntt.is_poly_invertible_ok lg f Hlg Lf Sf) as (b & E1 & H1).
  rewrite HI in E1. injection E1 as <-. apply H1. reflexivity.
Qed.
Lemma sign_bt_verifies fuel sfuel B T msg sig rng pos sig' pos' h0 h pk0 pk : bytes sig -> (sig_bytes lg + 2 <= length sig)%nat -> byte_stream rng ->
  length h0 = N -> length pk0 = pkey_len lg -> compute_public_key lg f g h0 = Ok h -> encode_pkey lg h pk0 = Ok pk ->
  compute_matrix_B RF exact_table lg f g F_ G_ = Ok B ->
  sign_bt RF exact_table fuel sfuel xof lg B T msg sig rng pos = Ok (sig', pos') ->
  let salt := map (fun i => rng (pos + i)%nat) (seq 0 40) in
  exists c s1 s2 body, hashed (xof (salt ++ msg)) lg c /\ length s1 = N /\ length s2 = N /\
    modq s1 = s1_residues lg c s2 h /\ sqnorm s1 + sqnorm s2 <= beta2 lg /\
    bytes body /\ tot s2 < body_len lg /\ bits_of body = encs s2 ++ repeat false (Z.to_nat (body_len lg - tot s2)) /\
    sig' = (48 + Z.of_nat lg :: salt) ++ body ++ skipn (sig_bytes lg) sig /\
    (Forall (fun v => Z.abs v <= 1023) s2 -> (lg = 10%nat -> ~ In 6144 s1) ->
      exists fuel0, forall fuel m, (fuel0 <= fuel)%nat -> verify m fuel xof lg pk msg sig' = Ok true).
Proof.
  intros Bs Ls Hr Lh0 Lpk0 HK HE HB H salt. destruct (salt_facts rng pos Hr) as [Lsalt Bsalt]. fold salt in Lsalt, Bsalt. destruct (sig_dims lg Hlg) as (D1 & D2 & _).
  assert (Ls' : (sig_bytes lg <= length sig)%nat) by lia.
  destruct (sign_bt_vector _ _ _ _ _ _ _ _ _ _ Ls' HB H) as (c & z0 & z1 & s1 & s2 & body & Hc & L0 & L1 & E1 & E2 & Bn & Lb & Bb & Tt & Kb & E). fold salt in Hc, E.
  exists c, s1, s2, body. split; [exact Hc|]. split; [rewrite E1; apply tab_length|]. assert (L2 : length s2 = N) by (rewrite E2; apply tab_length). split; [exact L2|].
  destruct (P_nttx.public_key_spec lg f g h0 Hlg Lf Lg Lh0 Sf Sg HI) as (h' & Eh & Lh & Ch & HP & _). assert (h' = h) by congruence. subst h'.
  split; [rewrite E1, E2; symmetry; apply (P_verifyx.sign_equation lg f g F_ G_ h z0 z1 c Hlg Lf Lg LF LG Lh HN invertible_unit HP)|].
  repeat (split; [assumption|]). intros S2 NI.
  set (x := skipn (sig_bytes lg) sig) in *. 
  assert (Bx : bytes x) by (unfold bytes in *; rewrite <- (firstn_skipn (sig_bytes lg) sig) in Bs; apply Forall_app in Bs; apply Bs).
  assert (Lx : (2 <= length x)%nat) by (unfold x; rewrite skipn_length; lia).
  set (e := (48 + Z.of_nat lg :: salt) ++ body). assert (Ee : sig' = e ++ x) by (rewrite E; unfold e; rewrite <- app_assoc; reflexivity). rewrite Ee.
  rewrite E1 in NI, Bn. rewrite E2 in S2, Bn.
  refine (P_verifyx.completeness lg f g F_ G_ h0 h pk0 pk z0 z1 c salt msg e x xof Hlg Hx Lf Lg LF LG Sf Sg Lh0 Lpk0 HN HI HK HE Lsalt Bsalt Bx Lx Hc Bn S2 NI _).
  exists (repeat 0 (sig_bytes lg - 41)). split; [apply repeat_length|]. split; [apply P_nttx.Forall_rep; unfold byte; lia|].
  set (buf := (48 + Z.of_nat lg :: salt) ++ repeat 0 (sig_bytes lg - 41)).
  assert (Lbuf : length buf = sig_bytes lg) by (unfold buf; cbn [length app]; rewrite app_length, repeat_length, Lsalt; lia).
  rewrite E2 in L2, Tt, Kb. destruct (compress_ok lg _ buf Hlg L2 ltac:(lia)) as [K1 _].
  destruct K1 as (body' & E' & B' & L' & K & _); [assert (body_len lg <= 14 * 2 ^ Z.of_nat lg) by (destruct Hlg as [->| ->]; vm_compute; congruence); lia|].
  rewrite E'. rewrite (proj2 (Z.ltb_lt _ _) Tt). specialize (K Tt). rewrite <- Kb in K. apply P_sig.bits_of_inj in K; [|assumption|assumption]. subst body'.
  unfold e. do 3 f_equal.
Qed.

(** sign on key bytes: it runs sign(B, T) for the matrix of (f, g, F, G) *)
Hypothesis RG : Forall (fun x => -2147483648 <= x <= 2147483647) G_.
Lemma sign_unfold fuel sfuel skey msg sig rng sig' b :
  decode_skey lg skey (repeat 0 N) (repeat 0 N) (repeat 0 N) = Ok (true, (f, g, F_)) ->
  sign RF exact_table fuel sfuel xof lg skey msg sig rng = Ok (b, sig') ->
  b = true /\ exists B T pos', compute_matrix_B RF exact_table lg f g F_ G_ = Ok B /\
    compute_falcon_tree RF exact_table lg B (fresh RF (N * (lg + 1))) = Ok T /\
    sign_bt RF exact_table fuel sfuel xof lg B T msg sig rng 0 = Ok (sig', pos').
Proof.
  intros HD H. unfold sign in H. rewrite HD in H. cbn [bind negb] in H.
  rewrite (recompute_G_ok lg f g F_ G_ (repeat 0 N) lg10 Lf Lg LF LG (repeat_length _ _) HN RG (invertible_nonzero lg f invertible_unit)) in H. cbn [bind] in H.
  apply bind_Ok in H. destruct H as [B [EB H]]. apply bind_Ok in H. destruct H as [T [ET H]]. apply bind_Ok in H. destruct H as [[sg p] [ES H]].
  cbn [bind] in H. injection H as <- <-. split; [reflexivity|]. exists B, T, p. auto.
Qed.

Definition sound_signature (pk msg sig sig' : list Z) (h : list Z) (salt : list Z) : Prop :=
  exists c s1 s2 body, hashed (xof (salt ++ msg)) lg c /\ length s1 = N /\ length s2 = N /\
    modq s1 = s1_residues lg c s2 h /\ sqnorm s1 + sqnorm s2 <= beta2 lg /\
    bytes body /\ tot s2 < body_len lg /\ bits_of body = encs s2 ++ repeat false (Z.to_nat (body_len lg - tot s2)) /\
    sig' = (48 + Z.of_nat lg :: salt) ++ body ++ skipn (sig_bytes lg) sig /\
    (Forall (fun v => Z.abs v <= 1023) s2 -> (lg = 10%nat -> ~ In 6144 s1) ->
      exists fuel0, forall fuel m, (fuel0 <= fuel)%nat -> verify m fuel xof lg pk msg sig' = Ok true).
Lemma sign_verifies fuel sfuel skey msg sig rng sig' b h0 h pk0 pk : bytes sig -> (sig_bytes lg + 2 <= length sig)%nat -> byte_stream rng ->
  length h0 = N -> length pk0 = pkey_len lg -> compute_public_key lg f g h0 = Ok h -> encode_pkey lg h pk0 = Ok pk ->
  decode_skey lg skey (repeat 0 N) (repeat 0 N) (repeat 0 N) = Ok (true, (f, g, F_)) ->
  sign RF exact_table fuel sfuel xof lg skey msg sig rng = Ok (b, sig') ->
  b = true /\ sound_signature pk msg sig sig' h (map rng (seq 0 40)).
Proof.
  intros Bs Ls Hr Lh0 Lpk0 HK HE HD H. destruct (sign_unfold _ _ _ _ _ _ _ _ HD H) as (-> & B & T & p & EB & _ & ES). split; [reflexivity|].
  exact (sign_bt_verifies fuel sfuel B T msg sig rng 0 sig' p h0 h pk0 pk Bs Ls Hr Lh0 Lpk0 HK HE EB ES).
Qed.
End Key.

Lemma fits_bound lg x : falcon_lg lg -> fits (skey_modulus lg) x -> smallq x.
Proof. intros [->| ->] H; unfold fits in H; [change (skey_modulus 9 / 2) with 32 in H|change (skey_modulus 10 / 2) with 16 in H]; unfold smallq, q; lia. Qed.
Lemma keygen_sign_verify fk sfk fuel sfuel lg rngk rng pk0 sk0 pk sk xof msg sig sig' b f g F_ G_ p : falcon_lg lg ->
  (forall a, byte_stream (xof a)) -> byte_stream rngk -> byte_stream rng ->
  length pk0 = pkey_len lg -> length sk0 = skey_len lg -> bytes sig -> (sig_bytes lg + 2 <= length sig)%nat ->
  keygen_bytes RF exact_table fk sfk lg pk0 sk0 rngk = Ok (pk, sk) ->
  ntru_gen RF exact_table fk sfk lg rngk 0 (repeat 0 (2 ^ lg)) (repeat 0 (2 ^ lg)) (repeat 0 (2 ^ lg)) (repeat 0 (2 ^ lg)) = Ok (f, g, F_, G_, p) ->
  Forall (fits (skey_modulus lg)) f -> Forall (fits (skey_modulus lg)) g -> Forall (fits 256) F_ -> Forall (fun x => Z.abs x <= 27000) G_ ->
  sign RF exact_table fuel sfuel xof lg sk msg sig rng = Ok (b, sig') ->
  b = true /\ exists h, decode_pkey lg pk (repeat 0 (2 ^ lg)) = Ok (true, h) /\ sound_signature lg xof pk msg sig sig' h (map rng (seq 0 40)).
Proof.
  intros Hlg Hx Hk Hr Lpk Lsk Bs Ls HK HG Ff Fg FF BG H.
  destruct (P_keygen.ntru_gen_spec RF exact_table fk sfk lg rngk 0 _ _ _ _ f g F_ G_ p P_keygen.small_exact_RF Hk Hlg (repeat_length _ _) (repeat_length _ _) (repeat_length _ _) (repeat_length _ _) HG)
    as (Lf & Lg & LF & LG & _ & _ & U & _ & HN).
  assert (Sf : Forall smallq f) by exact (Forall_impl _ (fun x => fits_bound lg x Hlg) Ff). assert (Sg : Forall smallq g) by exact (Forall_impl _ (fun x => fits_bound lg x Hlg) Fg).
  assert (HNT : ntru (2 ^ lg) f g F_ G_). { apply HN; [|exact BG]. refine (Forall_impl _ _ FF). intros x Hf. unfold fits in Hf. change (256 / 2) with 128 in Hf. lia. }
  assert (HI : is_poly_invertible lg f = Ok true). { destruct (P_ntt.is_poly_invertible_ok lg f Hlg Lf Sf) as (b0 & E1 & H1). rewrite E1. f_equal. apply H1. apply (proj2 (P_ntt.invertible_iff lg f Hlg Lf) U). }
  assert (RG : Forall (fun x => -2147483648 <= x <= 2147483647) G_). { refine (Forall_impl _ _ BG). intros x Hx0. cbv beta in Hx0. lia. }
  unfold keygen_bytes in HK. rewrite HG in HK. cbn [bind] in HK.
  apply bind_Ok in HK. destruct HK as [h [Eh HK]]. apply bind_Ok in HK. destruct HK as [pk' [Epk HK]]. apply bind_Ok in HK. destruct HK as [sk' [Esk HK]]. injection HK as -> ->.
  destruct (skey_round lg f g F_ sk0 (repeat 0 (2 ^ lg)) (repeat 0 (2 ^ lg)) (repeat 0 (2 ^ lg)) Hlg Lf Lg LF Lsk (repeat_length _ _) (repeat_length _ _) (repeat_length _ _)) as [s [Es [_ [_ [_ Ds]]]]].
  assert (s = sk) by congruence. subst s.
  destruct (sign_verifies lg Hlg f g F_ G_ Lf Lg LF LG HNT xof Hx Sf Sg HI RG fuel sfuel sk msg sig rng sig' b (repeat 0 (2 ^ lg)) h pk0 pk Bs Ls Hr (repeat_length _ _) Lpk Eh Epk) as [Hb S]; [apply Ds; auto|exact H|].
  split; [exact Hb|]. exists h. split; [|exact S].
  destruct (P_nttx.public_key_spec lg f g (repeat 0 (2 ^ lg)) Hlg Lf Lg (repeat_length _ _) Sf Sg HI) as (h' & Eh' & Lh & Ch & _). assert (h' = h) by congruence. subst h'.
  destruct (pk_round lg h pk0 (repeat 0 (2 ^ lg)) Hlg Lh) as [e [Ee [_ [_ [_ De]]]]]; try assumption; try apply repeat_length.
  { refine (Forall_impl _ _ Ch). intros x Hc. unfold canon, lt14, q in *. lia. }
  assert (e = pk) by congruence. subst e. exact De.
Qed.
