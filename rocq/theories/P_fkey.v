(** P_fkey.v -- the key of P_key.v meets the hypotheses of the claims about rounded arithmetic; the corollaries of P_fsv.v used in T_fsign.v. *)
From Verif Require Import Base Ring Poly Spec SpecR SpecF M_ff M_ntt M_codec P_codec P_keys M_sig P_comp M_verify M_float M_exact P_exact M_samp M_fft M_ntru P_ntru M_tree P_brv P_cplx P_fft P_treex P_sign P_l2 P_err P_ferr P_near P_ieee P_float P_fnorm P_fsign P_fsv P_leaf P_key P_live P_signx P_signv P_ntru2 P_sigx.
From Verif Require P_keygen P_ntt P_nttx P_fG.
From Coq Require Import Lra.
Open Scope R_scope.

Fixpoint l1 (l : list Z) : Z := match l with [] => 0 | c :: r => Z.abs c + l1 r end%Z.
Lemma l1_pos l : (0 <= l1 l)%Z.
Proof. induction l as [|c r IH]; cbn [l1]; lia. Qed.
Lemma Cm_Cz z : Cm (Cz z) = IZR (Z.abs z).
Proof. unfold Cm, mod2, Cz. cbn [fst snd]. rewrite Rmult_0_l, Rplus_0_r. change (IZR z * IZR z) with (Rsqr (IZR z)). rewrite sqrt_Rsqr_abs. symmetry. apply abs_IZR. Qed.
Lemma horner_l1 l x : Cm x <= 1 -> Cm (horner (map Cz l) x) <= IZR (l1 l).
Proof.
  intros Hx. induction l as [|c r IH]; cbn [map horner l1].
  - rewrite Cm_zero. lra.
  - eapply Rle_trans; [apply Cm_tri|]. rewrite Cm_Cz, Cm_mul, plus_IZR. assert (0 <= Cm (horner (map Cz r) x)) by apply Cm_pos. assert (0 <= Cm x) by apply Cm_pos.
    assert (Cm x * Cm (horner (map Cz r) x) <= 1 * Cm (horner (map Cz r) x)) by (apply Rmult_le_compat_r; lra). lra.
Qed.
Lemma spr_l1 l : l1 (spr l) = l1 l.
Proof. induction l as [|c r IH]; [reflexivity|]. cbn [spr l1]. rewrite IH. lia. Qed.
Lemma Cm_point lg i : Cm (fft_point lg i) <= 1.
Proof. unfold Cm, mod2, fft_point, cis. cbn [fst snd]. rewrite Rplus_comm. assert (E := sin2_cos2 (PI * INR (2 * brv lg i + 1) / INR (2 ^ lg))). unfold Rsqr in E. rewrite E, sqrt_1. lra. Qed.
Lemma values_l1 lg a : values_le lg a (IZR (l1 a)).
Proof. apply Forall_forall. intros x Hx. apply in_map_iff in Hx. destruct Hx as (i & <- & _). apply horner_l1, Cm_point. Qed.
Lemma values_le_weak lg a b c : b <= c -> values_le lg a b -> values_le lg a c.
Proof. intros H. apply Forall_impl. intros x Hx. eapply Rle_trans; eassumption. Qed.

Definition ku : list Z := spr (spr (spr (spr (spr (spr [1947413566463; -1847293247875; -3408219044336; -2725582158864; -445988504280; -3571901086416; 1422646609320; -1092693663105]%Z))))).
Lemma k_u : negacyclic 512 kf ku = spr (spr (spr (spr (spr (spr [406515201731329; 0; 0; 0; 0; 0; 0; 0]%Z))))).
Proof.
  unfold kf, ku. set (a := [31; 20; -31; 21; -16; 31; 31; 12]%Z). set (b := [1947413566463; _; _; _; _; _; _; _]%Z).
  change 512%nat with (2 * 256)%nat at 1; rewrite (spr_mul 256 (spr (spr (spr (spr (spr a))))) (spr (spr (spr (spr (spr b)))))) by reflexivity.
  change 256%nat with (2 * 128)%nat at 1; rewrite (spr_mul 128 (spr (spr (spr (spr a)))) (spr (spr (spr (spr b))))) by reflexivity.
  change 128%nat with (2 * 64)%nat at 1; rewrite (spr_mul 64 (spr (spr (spr a))) (spr (spr (spr b)))) by reflexivity.
  change 64%nat with (2 * 32)%nat at 1; rewrite (spr_mul 32 (spr (spr a)) (spr (spr b))) by reflexivity.
  change 32%nat with (2 * 16)%nat at 1; rewrite (spr_mul 16 (spr a) (spr b)) by reflexivity.
  change 16%nat with (2 * 8)%nat at 1; rewrite (spr_mul 8 a b) by reflexivity. reflexivity.
Qed.
Lemma hcst z y : horner (map Cz [z; 0; 0; 0; 0; 0; 0; 0]%Z) y = Cz z.
Proof.
  assert (E : Cadd (Cz 0) (Cmul y Czero) = Czero) by (unfold Cadd, Cmul, Cz, Czero; cbn [fst snd]; f_equal; ring).
  cbn [map horner]. rewrite !E. unfold Cadd, Cmul, Cz, Czero; cbn [fst snd]; f_equal; ring.
Qed.
Lemma k_ge : values_ge 9 kf 24.
Proof.
  destruct k_length as (L1 & _). apply values_ge_ev; [exact L1|]. intros i Hi. change (2 ^ 9)%nat with 512%nat in *.
  assert (Lu : length ku = 512%nat) by reflexivity.
  assert (E : Cmul (ev (lg:=9) (emb (ofl Z 0%Z 512 kf)) i) (ev (lg:=9) (emb (ofl Z 0%Z 512 ku)) i) = Cz 406515201731329).
  { rewrite <- ev_mul. change (2 ^ 9)%nat with 512%nat. rewrite <- emb_mul.
    assert (K := k_u). rewrite negacyclic_zmul in K. assert (K2 : zof 512 (zpl (zmul (zof 512 kf) (zof 512 ku))) = zof 512 (spr (spr (spr (spr (spr (spr [406515201731329; 0; 0; 0; 0; 0; 0; 0]%Z))))))) by (rewrite K; reflexivity).
    rewrite ofl_pl in K2. rewrite K2. rewrite <- (poly_at_ev 9) by reflexivity. unfold poly_at. rewrite !spr_horner. apply hcst. }
  assert (M : Cm (ev (lg:=9) (emb (ofl Z 0%Z 512 kf)) i) * Cm (ev (lg:=9) (emb (ofl Z 0%Z 512 ku)) i) = 406515201731329) by (rewrite <- Cm_mul, E, Cm_Cz; reflexivity).
  assert (U : Cm (ev (lg:=9) (emb (ofl Z 0%Z 512 ku)) i) <= 16461737880659).
  { rewrite <- (poly_at_ev 9) by reflexivity. unfold poly_at. eapply Rle_trans; [apply horner_l1, Cm_point|]. unfold ku. rewrite !spr_l1. apply IZR_le. vm_compute. discriminate. }
  set (x := Cm (ev (lg:=9) (emb (ofl Z 0%Z 512 kf)) i)) in *. set (y := Cm _) in M, U. assert (0 <= x) by apply Cm_pos. assert (0 <= y) by apply Cm_pos.
  apply Rnot_lt_le. intros L. assert (x * y <= 24 * y) by (apply Rmult_le_compat_r; lra). lra.
Qed.
Lemma k_le : values_le 9 kf 400 /\ values_le 9 kg 400 /\ values_le 9 kF 6000 /\ values_le 9 kG 6000.
Proof. repeat split; (eapply values_le_weak; [|apply values_l1]); unfold kf, kg, kF, kG; rewrite !spr_l1; apply IZR_le; vm_compute; discriminate. Qed.
Lemma k_sq : (sqnorm kf <= 17161 /\ sqnorm kg <= 17161 /\ sqnorm kF <= 2250000 /\ sqnorm kG <= 2250000)%Z.
Proof. unfold kf, kg, kF, kG. rewrite !spr_sqnorm. repeat split; vm_compute; discriminate. Qed.
Lemma table_exact : table_near RF (fun _ => True) (fun x => x) exact_table.
Proof.
  split; [apply map_length || (unfold exact_table, tab; rewrite map_length, seq_length; reflexivity)|]. intros k Hk z. split; [exact I|]. split; [exact I|]. subst z. change (fofz RF 0, fofz RF 0) with Czero. set (w := nth k exact_table Czero).
  assert (E : Csub (fst w, snd w) w = Czero) by (unfold Csub, Czero; cbn [fst snd]; f_equal; ring). change (Cmod (Csub (fst w, snd w) w) <= 15 / 10000000000000000). rewrite E. change (Cm Czero <= 15 / 10000000000000000). rewrite Cm_zero. lra.
Qed.

(** statements on lists *)
Lemma f10 lg : falcon_lg lg -> (lg <= 10)%nat.
Proof. intros [-> | ->]; lia. Qed.
Section Cor.
Variable F : fops.
Variable fin : D F -> Prop.
Variable val : D F -> R.
Hypothesis A : accurate F fin val.
Variable ztab : list (D F * D F).
Hypothesis HZ : table_near F fin val ztab.
Lemma apx_values lg l (a : list Z) e : length a = (2 ^ lg)%nat -> apx F fin val (2 ^ lg) l (ev (emb (ofl Z 0%Z (2 ^ lg) a))) e -> approx F fin val l (values lg (map Cz a)) e.
Proof.
  intros La H. assert (Lv : length (values lg (map Cz a)) = (2 ^ lg)%nat) by (unfold values; rewrite map_length, seq_length; reflexivity).
  apply approx_apx. rewrite Lv. eapply apx_ext; [|exact H]. intros i Hi. rewrite <- poly_at_ev by exact La. unfold L, values.
  rewrite (nth_indep _ Czero (horner (map Cz a) (fft_point lg 0))) by (rewrite map_length, seq_length; exact Hi).
  rewrite (map_nth (fun i => horner (map Cz a) (fft_point lg i)) (seq 0 (2 ^ lg)) 0%nat i), seq_nth by exact Hi. reflexivity.
Qed.
Lemma apx_values_opp lg l (a : list Z) e : length a = (2 ^ lg)%nat -> apx F fin val (2 ^ lg) l (ev (cpopp (emb (ofl Z 0%Z (2 ^ lg) a)))) e -> approx F fin val l (map Copp (values lg (map Cz a))) e.
Proof.
  intros La H. assert (Lv : length (map Copp (values lg (map Cz a))) = (2 ^ lg)%nat) by (unfold values; rewrite !map_length, seq_length; reflexivity).
  apply approx_apx. rewrite Lv. eapply apx_ext; [|exact H]. intros i Hi. rewrite ev_opp', <- poly_at_ev by exact La. unfold L, values. rewrite map_map.
  rewrite (nth_indep _ Czero (Copp (horner (map Cz a) (fft_point lg 0)))) by (rewrite map_length, seq_length; exact Hi).
  rewrite (map_nth (fun i => Copp (horner (map Cz a) (fft_point lg i))) (seq 0 (2 ^ lg)) 0%nat i), seq_nth by exact Hi. reflexivity.
Qed.
Lemma approx_weak l v e e' : e <= e' -> approx F fin val l v e -> approx F fin val l v e'.
Proof. intros H (H1 & H2 & H3). split; [exact H1|]. split; [exact H2|]. lra. Qed.
Variable lg : nat.
Hypothesis Hlg : falcon_lg lg.
Notation N := (2 ^ lg)%nat.
Variables f g F_ G_ : list Z.
Hypotheses (Lf : length f = N) (Lg : length g = N) (LF : length F_ = N) (LG : length G_ = N).
Hypotheses (Nf : (sqnorm f <= 17161)%Z) (Ng : (sqnorm g <= 17161)%Z).

Section Wide.
Hypotheses (NF : (sqnorm F_ <= 16777216)%Z) (NG : (sqnorm G_ <= 16777216)%Z).
Lemma matrix_float : exists w0 w1 w2 w3, compute_matrix_B F ztab lg f g F_ G_ = Ok (w0 ++ w1 ++ w2 ++ w3) /\
  approx F fin val w0 (values lg (map Cz g)) (1 / 10 ^ 10) /\ approx F fin val w1 (map Copp (values lg (map Cz f))) (1 / 10 ^ 10) /\
  approx F fin val w2 (values lg (map Cz G_)) (3 / 10 ^ 9) /\ approx F fin val w3 (map Copp (values lg (map Cz F_))) (3 / 10 ^ 9).
Proof.
  destruct (matrix_B_apx F fin val A ztab HZ lg (f10 lg Hlg) f g F_ G_ Lf Lg LF LG 131 4096 ltac:(lra) ltac:(lra) (nrm_list lg f 131 Lf ltac:(lia) Nf) (nrm_list lg g 131 Lg ltac:(lia) Ng) (nrm_list lg F_ 4096 LF ltac:(lia) NF) (nrm_list lg G_ 4096 LG ltac:(lia) NG)) as (B & E & w0 & w1 & w2 & w3 & -> & A0 & A1 & A2 & A3).
  exists w0, w1, w2, w3. unfold e1 in *. unfold e2 in *. split; [exact E|].
  split; [eapply approx_weak; [|apply apx_values; [exact Lg|exact A0]]; simpl; lra|]. split; [eapply approx_weak; [|apply apx_values_opp; [exact Lf|exact A1]]; simpl; lra|].
  split; [eapply approx_weak; [|apply apx_values; [exact LG|exact A2]]; simpl; lra|]. eapply approx_weak; [|apply apx_values_opp; [exact LF|exact A3]]; simpl; lra.
Qed.
Hypothesis HN : ntru N f g F_ G_.
Lemma values_sup (a : list Z) K : length a = N -> (0 <= K)%Z -> (sqnorm a <= K * K)%Z -> values_le lg a (32 * IZR K).
Proof. intros La HK H. apply values_le_ev; [exact La|]. intros i Hi. apply (ev_sup lg (f10 lg Hlg)); [|exact Hi]. apply nrm_list; assumption. Qed.
Lemma wide_vector xof fuel sfuel B T msg sig rng pos sig' pos' : (forall a, byte_stream (xof a)) -> (sig_bytes lg <= length sig)%nat ->
  compute_matrix_B F ztab lg f g F_ G_ = Ok B -> sign_bt F ztab fuel sfuel xof lg B T msg sig rng pos = Ok (sig', pos') ->
  let salt := map (fun i => rng (pos + i)%nat) (seq 0 40) in
  exists c z0 z1 s1 s2 body, hashed (xof (salt ++ msg)) lg c /\ length z0 = N /\ length z1 = N /\
    s1 = psub N (psub N c (negacyclic N z0 g)) (negacyclic N z1 G_) /\ s2 = padd N (negacyclic N z0 f) (negacyclic N z1 F_) /\
    (sqnorm s1 + sqnorm s2 <= beta2 lg + 53)%Z /\
    length body = (sig_bytes lg - 41)%nat /\ bytes body /\ (tot s2 < body_len lg)%Z /\ bits_of body = encs s2 ++ repeat false (Z.to_nat (body_len lg - tot s2)) /\
    sig' = (48 + Z.of_nat lg :: salt)%Z ++ body ++ skipn (sig_bytes lg) sig.
Proof.
  intros Hx Ls HB H. refine (sign_float_vector F fin val A ztab HZ lg Hlg f g F_ G_ Lf Lg LF LG HN 4096 4192 131072 12500 (72 / 1000) 53 _ _ _ Nf Ng NF NG _ _ _ _ good_wide _ xof Hx fuel sfuel B T msg sig rng pos sig' pos' Ls HB H); try lia; try lra.
  - eapply values_le_weak; [|apply (values_sup f 131); [exact Lf|lia|exact Nf]]. lra.
  - eapply values_le_weak; [|apply (values_sup g 131); [exact Lg|lia|exact Ng]]. lra.
  - eapply values_le_weak; [|apply (values_sup F_ 4096); [exact LF|lia|exact NF]]. lra.
  - eapply values_le_weak; [|apply (values_sup G_ 4096); [exact LG|lia|exact NG]]. lra.
Qed.
End Wide.

Section Strict.
Hypotheses (NF : (sqnorm F_ <= 2250000)%Z) (NG : (sqnorm G_ <= 2250000)%Z).
Hypotheses (Uf : values_le lg f 400) (Ug : values_le lg g 400) (UF : values_le lg F_ 6000) (UG : values_le lg G_ 6000).
Hypothesis HN : ntru N f g F_ G_.
Variable xof : list Z -> nat -> Z.
Hypothesis Hx : forall a, byte_stream (xof a).
Lemma strict_vector fuel sfuel B T msg sig rng pos sig' pos' : (sig_bytes lg <= length sig)%nat ->
  compute_matrix_B F ztab lg f g F_ G_ = Ok B -> sign_bt F ztab fuel sfuel xof lg B T msg sig rng pos = Ok (sig', pos') ->
  let salt := map (fun i => rng (pos + i)%nat) (seq 0 40) in
  exists c z0 z1 s1 s2 body, hashed (xof (salt ++ msg)) lg c /\ length z0 = N /\ length z1 = N /\
    s1 = psub N (psub N c (negacyclic N z0 g)) (negacyclic N z1 G_) /\ s2 = padd N (negacyclic N z0 f) (negacyclic N z1 F_) /\
    (sqnorm s1 + sqnorm s2 <= beta2 lg)%Z /\
    length body = (sig_bytes lg - 41)%nat /\ bytes body /\ (tot s2 < body_len lg)%Z /\ bits_of body = encs s2 ++ repeat false (Z.to_nat (body_len lg - tot s2)) /\
    sig' = (48 + Z.of_nat lg :: salt)%Z ++ body ++ skipn (sig_bytes lg) sig.
Proof.
  intros Ls HB H. destruct (sign_float_vector F fin val A ztab HZ lg Hlg f g F_ G_ Lf Lg LF LG HN 1500 400 6000 2700 (1180 / 1000000) 0 ltac:(lia) ltac:(lra) ltac:(lra) Nf Ng NF NG Uf Ug UF UG good_strict ltac:(lra) xof Hx fuel sfuel B T msg sig rng pos sig' pos' Ls HB H)
    as (c & z0 & z1 & s1 & s2 & body & H1 & H2 & H3 & H4 & H5 & H6 & H7).
  exists c, z0, z1, s1, s2, body. rewrite Z.add_0_r in H6. repeat (split; [assumption|]). exact H7.
Qed.
Hypotheses (Sf' : Forall smallq f) (Sg' : Forall smallq g) (HI : is_poly_invertible lg f = Ok true).
Hypothesis Hmin : values_ge lg f (1 / 1000).
Lemma strict_bytes fuel sfuel skey msg sig rng sig' b h0 h pk0 pk : bytes sig -> (sig_bytes lg + 2 <= length sig)%nat -> byte_stream rng ->
  length h0 = N -> length pk0 = pkey_len lg -> compute_public_key lg f g h0 = Ok h -> encode_pkey lg h pk0 = Ok pk ->
  decode_skey lg skey (repeat 0%Z N) (repeat 0%Z N) (repeat 0%Z N) = Ok (true, (f, g, F_)) ->
  sign F ztab fuel sfuel xof lg skey msg sig rng = Ok (b, sig') ->
  b = true /\ sound_signature lg xof pk msg sig sig' h (map rng (seq 0 40)).
Proof.
  intros Bs Ls Hr Lh0 Lpk0 HK HE HD H.
  destruct (sign_float_bytes F fin val A ztab HZ lg Hlg f g F_ G_ Lf Lg LF LG HN 1500 400 6000 2700 (1180 / 1000000) 0 ltac:(lia) ltac:(lra) ltac:(lra) Nf Ng NF NG Uf Ug UF UG good_strict ltac:(lra) xof Hx Sf' Sg' HI Hmin fuel sfuel skey msg sig rng sig' b h0 h pk0 pk Bs Ls Hr Lh0 Lpk0 HK HE HD H)
    as [Hb (c & s1 & s2 & body & H1 & H2 & H3 & H4 & H5 & H6 & H7 & H8 & H9 & H10)].
  rewrite Z.add_0_r in H5. split; [exact Hb|]. exists c, s1, s2, body. repeat (split; [assumption|]). intros Q1 Q2. apply H10; assumption.
Qed.
End Strict.
End Cor.

(** key generation, signing and verification in rounded arithmetic *)
Lemma float_keygen_sign_verify F fin val : accurate F fin val -> small_exact F -> forall ztab, table_near F fin val ztab ->
  forall fk sfk fuel sfuel lg rngk rng pk0 sk0 pk sk xof msg sig sig' b f g F_ G_ p, falcon_lg lg ->
  (forall a, byte_stream (xof a)) -> byte_stream rngk -> byte_stream rng ->
  length pk0 = pkey_len lg -> length sk0 = skey_len lg -> bytes sig -> (sig_bytes lg + 2 <= length sig)%nat ->
  keygen_bytes F ztab fk sfk lg pk0 sk0 rngk = Ok (pk, sk) ->
  ntru_gen F ztab fk sfk lg rngk 0 (repeat 0%Z (2 ^ lg)) (repeat 0%Z (2 ^ lg)) (repeat 0%Z (2 ^ lg)) (repeat 0%Z (2 ^ lg)) = Ok (f, g, F_, G_, p) ->
  Forall (fits (skey_modulus lg)) f -> Forall (fits (skey_modulus lg)) g -> Forall (fits 256) F_ ->
  (sqnorm f <= 17161)%Z -> (sqnorm g <= 17161)%Z -> (sqnorm F_ <= 2250000)%Z -> (sqnorm G_ <= 2250000)%Z ->
  values_le lg f 400 -> values_le lg g 400 -> values_le lg F_ 6000 -> values_le lg G_ 6000 -> values_ge lg f (1 / 1000) ->
  sign F ztab fuel sfuel xof lg sk msg sig rng = Ok (b, sig') ->
  b = true /\ exists h, decode_pkey lg pk (repeat 0%Z (2 ^ lg)) = Ok (true, h) /\ sound_signature lg xof pk msg sig sig' h (map rng (seq 0 40)).
Proof.
  intros A SE ztab HZ fk sfk fuel sfuel lg rngk rng pk0 sk0 pk sk xof msg sig sig' b f g F_ G_ p Hlg Hx Hk Hr Lpk Lsk Bs Ls HK HG Ff Fg FF Nf Ng NF NG Uf Ug UF UG Hmin H.
  destruct (P_keygen.ntru_gen_spec F ztab fk sfk lg rngk 0 _ _ _ _ f g F_ G_ p SE Hk Hlg (repeat_length _ _) (repeat_length _ _) (repeat_length _ _) (repeat_length _ _) HG)
    as (Lf & Lg & LF & LG & _ & _ & U & _ & HN).
  assert (Sf : Forall smallq f) by exact (Forall_impl _ (fun x => fits_bound lg x Hlg) Ff). assert (Sg : Forall smallq g) by exact (Forall_impl _ (fun x => fits_bound lg x Hlg) Fg).
  assert (HNT : ntru (2 ^ lg) f g F_ G_).
  { apply HN; [refine (Forall_impl _ _ FF); intros x Hf; unfold fits in Hf; change (256 / 2)%Z with 128%Z in Hf; lia|].
    apply Forall_forall. intros x Hin. apply (sqnorm_coeff G_ x) in Hin. nia. }
  assert (HI : is_poly_invertible lg f = Ok true). { destruct (P_ntt.is_poly_invertible_ok lg f Hlg Lf Sf) as (b0 & E1 & H1). rewrite E1. f_equal. apply H1. apply (proj2 (P_ntt.invertible_iff lg f Hlg Lf) U). }
  unfold keygen_bytes in HK. rewrite HG in HK. cbn [bind] in HK.
  apply bind_Ok in HK. destruct HK as [h [Eh HK]]. apply bind_Ok in HK. destruct HK as [pk' [Epk HK]]. apply bind_Ok in HK. destruct HK as [sk' [Esk HK]].
  assert (pk' = pk) by congruence. assert (sk' = sk) by congruence. subst pk' sk'.
  destruct (skey_round lg f g F_ sk0 (repeat 0%Z (2 ^ lg)) (repeat 0%Z (2 ^ lg)) (repeat 0%Z (2 ^ lg)) Hlg Lf Lg LF Lsk (repeat_length _ _) (repeat_length _ _) (repeat_length _ _)) as [s [Es [_ [_ [_ Ds]]]]].
  assert (s = sk) by congruence. subst s.
  destruct (strict_bytes F fin val A ztab HZ lg Hlg f g F_ G_ Lf Lg LF LG Nf Ng NF NG Uf Ug UF UG HNT xof Hx Sf Sg HI Hmin fuel sfuel sk msg sig rng sig' b (repeat 0%Z (2 ^ lg)) h pk0 pk Bs Ls Hr (repeat_length _ _) Lpk Eh Epk) as [Hb S]; [apply Ds; auto|exact H|].
  split; [exact Hb|]. exists h. split; [|exact S].
  destruct (P_nttx.public_key_spec lg f g (repeat 0%Z (2 ^ lg)) Hlg Lf Lg (repeat_length _ _) Sf Sg HI) as (h' & Eh' & Lh & Ch & _). assert (h' = h) by congruence. subst h'.
  destruct (pk_round lg h pk0 (repeat 0%Z (2 ^ lg)) Hlg Lh) as [e [Ee [_ [_ [_ De]]]]]; try assumption; try apply repeat_length.
  { refine (Forall_impl _ _ Ch). intros x Hc. unfold canon, lt14, q in *. lia. }
  assert (e = pk) by congruence. subst e. exact De.
Qed.

Lemma recompute_list F fin val : accurate F fin val -> forall ztab, table_near F fin val ztab -> forall lg f g F_ G_, falcon_lg lg ->
  length f = (2 ^ lg)%nat -> length g = (2 ^ lg)%nat -> length F_ = (2 ^ lg)%nat -> length G_ = (2 ^ lg)%nat -> ntru (2 ^ lg) f g F_ G_ ->
  (sqnorm f <= 17161)%Z -> (sqnorm g <= 17161)%Z -> (sqnorm F_ <= 16777216)%Z -> (sqnorm G_ <= 16777216)%Z -> values_ge lg f (1 / 1000) ->
  forall out, length out = (2 ^ lg)%nat -> recompute_G F ztab lg f g F_ out = Ok G_.
Proof.
  intros A ztab HZ lg f g F_ G_ Hlg Lf Lg LF LG HN Nf Ng NF NG Hm out Lo.
  assert (a := nrm_list lg f 131 Lf ltac:(lia) Nf). assert (b := nrm_list lg g 131 Lg ltac:(lia) Ng). assert (c := nrm_list lg F_ 4096 LF ltac:(lia) NF). assert (d := nrm_list lg G_ 4096 LG ltac:(lia) NG).
  apply (P_fG.recompute_G_apx F fin val A ztab HZ lg (f10 lg Hlg)); try assumption. apply values_ge_ev; assumption.
Qed.
