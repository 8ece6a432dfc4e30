(** P_vers.v -- a signature is nearly always returned, and verification accepts it. *)
From Verif Require Import Base Spec SpecR SpecS SpecG SpecJ SpecH SpecM M_ff M_codec M_ntt M_sig M_verify M_float M_exact M_samp M_fft M_ntru M_tree P_codec P_keys P_sig P_comp P_sigx P_prob P_gsum P_jprob P_jgauss P_jkey P_jcoset P_kubx P_hash P_loop P_loopk P_loops P_widek P_sim P_fitm P_fits P_ver.
From Verif Require P_key P_decomp P_ff P_ntt P_nttx P_sign P_signx P_signv P_verifyx P_signb P_defx.
From Coq Require Import Lra.
Open Scope R_scope.

Lemma verify_refuel mo k1 k2 xof lg pk msg sig c : falcon_lg lg -> (forall a, byte_stream (xof a)) -> bytes pk -> length pk = pkey_len lg -> bytes sig -> (sig_bytes lg + 2 <= length sig)%nat ->
  hash_to_point k1 xof lg (firstn 40 (skipn 1 sig)) msg (repeat 0%Z (2 ^ lg)) = Ok c -> hash_to_point k2 xof lg (firstn 40 (skipn 1 sig)) msg (repeat 0%Z (2 ^ lg)) = Ok c ->
  verify mo k1 xof lg pk msg sig = Ok true -> verify mo k2 xof lg pk msg sig = Ok true.
Proof.
  intros Hlg Hx Bp Lp Bs Ls H1 H2 V. destruct (P_verifyx.verify_ok mo k1 xof lg pk msg sig Hlg Hx Bp Lp Bs Ls) as (V1 & V2 & V3 & V4). destruct (P_verifyx.verify_ok mo k2 xof lg pk msg sig Hlg Hx Bp Lp Bs Ls) as (_ & _ & _ & W4).
  destruct (Z.eq_dec (nth 0 pk 0%Z) (Z.of_nat lg)) as [E0|N0]; [|rewrite V1 in V by exact N0; discriminate].
  destruct (pk_back lg pk (repeat 0%Z (2 ^ lg)%nat) (repeat 0%Z (pkey_len lg)) Hlg Lp Bp (repeat_length _ _) (repeat_length _ _)) as [_ P2]. destruct (P2 E0) as (h & Eh & _).
  destruct (Z.eq_dec (nth 0 sig 0%Z) (48 + Z.of_nat lg)) as [E1|N1]; [|rewrite V2 in V by exact N1; discriminate].
  destruct (P_decomp.decompress_iff lg sig (repeat 0%Z (2 ^ lg)%nat) Hlg Bs Ls (repeat_length _ _)) as (b & s & _ & _ & A1 & A2). destruct b.
  - specialize (A1 eq_refl). rewrite (V4 h s Eh E1 A1), H1 in V. rewrite (W4 h s Eh E1 A1), H2. exact V.
  - rewrite V3 in V; [discriminate|]. intros s' A'. destruct (A2 s' A'). discriminate.
Qed.
Definition smallv (s : list Z * list Z) : bool := negb (existsb big (fst s) || existsb big (snd s)).
Lemma small_in s : smallv s = true -> (forall x, In x (fst s) -> Z.abs x <= 1023)%Z /\ (forall x, In x (snd s) -> Z.abs x <= 1023)%Z.
Proof.
  unfold smallv. rewrite Bool.negb_orb, Bool.andb_true_iff, !Bool.negb_true_iff. intros [A B]. split; intros x Hx.
  - destruct (Z.le_gt_cases (Z.abs x) 1023) as [|C]; [assumption|]. exfalso. rewrite (proj2 (existsb_exists big (fst s))) in A; [discriminate|]. exists x. split; [exact Hx|]. apply Z.leb_le. lia.
  - destruct (Z.le_gt_cases (Z.abs x) 1023) as [|C]; [assumption|]. exfalso. rewrite (proj2 (existsb_exists big (snd s))) in B; [discriminate|]. exists x. split; [exact Hx|]. apply Z.leb_le. lia.
Qed.
Lemma stream_bytes l : bytes l -> byte_stream (stream l).
Proof. intros H i. unfold stream. destruct (Nat.lt_ge_cases i (length l)) as [G|G]; [unfold bytes in H; rewrite Forall_forall in H; apply H, nth_In, G|rewrite nth_overflow by exact G; unfold byte; lia]. Qed.

Lemma sign_good lg (Hlg : falcon_lg lg) f g F_ G_ h0 h pk0 pk : sound_key lg f g F_ G_ -> length h0 = (2 ^ lg)%nat -> compute_public_key lg f g h0 = Ok h -> length pk0 = pkey_len lg -> encode_pkey lg h pk0 = Ok pk ->
  forall skey, decode_skey lg skey (repeat 0%Z (2 ^ lg)) (repeat 0%Z (2 ^ lg)) (repeat 0%Z (2 ^ lg)) = Ok (true, (f, g, F_)) ->
  forall msg salt sig k m mo, length salt = 40%nat -> bytes salt -> bytes sig -> (sig_bytes lg + 2 <= length sig)%nat ->
  forall v c e s, bytes v -> let xof := fun _ => stream (firstn (136 * k) v) in hash_to_point k xof lg salt msg (repeat 0%Z (2 ^ lg)) = Ok c ->
    sign RF exact_table m k xof lg skey msg sig (stream (salt ++ skipn (136 * k) v)) = Ok (true, e) ->
    signable lg c h s -> smallv s = true -> body_bits lg e = wire lg s ->
    verify mo k xof lg pk msg e = Ok true /\ (forall a, byte_stream (xof a)) /\ bytes e /\ (sig_bytes lg + 2 <= length e)%nat /\ bytes pk /\ length pk = pkey_len lg.
Proof.
  intros HS Lh HK Lpk0 HE skey HD msg salt sig k m mo Lsa Bsa Bsg Ls v c e s Bv xof Eh Es Hs Hn' Eb.
  assert (Bv1 : bytes (firstn (136 * k) v)) by (apply Forall_forall; intros x Hx; unfold bytes in Bv; rewrite Forall_forall in Bv; apply Bv; rewrite <- (firstn_skipn (136 * k) v); apply in_app_iff; left; exact Hx).
  assert (Bv2 : bytes (skipn (136 * k) v)) by (apply Forall_forall; intros x Hx; unfold bytes in Bv; rewrite Forall_forall in Bv; apply Bv; rewrite <- (firstn_skipn (136 * k) v); apply in_app_iff; right; exact Hx).
  assert (Hx : forall a, byte_stream (xof a)) by (intros a; apply stream_bytes; exact Bv1).
  assert (Hr : byte_stream (stream (salt ++ skipn (136 * k) v))) by (apply stream_bytes, Forall_app; split; assumption).
  destruct HS as (Lf & Lg & LF & LG & HN & _ & _ & _ & BG & Sf & Sg & HI).
  assert (RG : Forall (fun x => -2147483648 <= x <= 2147483647)%Z G_). { refine (Forall_impl _ _ BG). intros x Hx0. cbv beta in Hx0. lia. }
  destruct (P_signv.sign_verifies lg Hlg f g F_ G_ Lf Lg LF LG HN xof Hx Sf Sg HI RG m k skey msg sig _ e true h0 h pk0 pk Bsg Ls Hr Lh Lpk0 HK HE HD Es) as [_ X]. cbv zeta in X.
  assert (ES : map (stream (salt ++ skipn (136 * k) v)) (seq 0 40) = salt) by (etransitivity; [|exact (stream_salt lg h0 Lh salt (skipn (136 * k) v) Lsa)]; apply map_ext; intros i; reflexivity). rewrite ES in X.
  destruct X as (c' & s1' & s2' & body & Hc' & L1 & L2 & EQ & NB & Bb & TB & EB & Ee & V).
  assert (Hc := P_verifyx.hash_hashed k xof lg salt msg _ c (Hx _) (repeat_length _ _) Eh). assert (c' = c) by exact (P_verifyx.hashed_unique _ _ _ _ Hc' Hc). subst c'.
  destruct (sig_dims lg Hlg) as (D1 & D2 & D3 & D4).
  destruct (P_nttx.public_key_spec lg f g h0 Hlg Lf Lg Lh Sf Sg HI) as (h' & E' & Lh' & Ch & _). assert (h' = h) by congruence. subst h'.
  destruct (pk_round lg h pk0 (repeat 0%Z (2 ^ lg)) Hlg Lh' ltac:(eapply Forall_impl; [|exact Ch]; intros a; apply P_ff.canon_lt14) Lpk0 (repeat_length _ _)) as (pk' & Ep & Lpk & Bpk & _). assert (pk' = pk) by congruence. subst pk'.
  assert (Lb : length body = (sig_bytes lg - 41)%nat). { assert (Q := f_equal (@length bool) EB). rewrite app_length, repeat_length, bits_of_length in Q. assert (EL := encs_length s2'). assert (BL : body_len lg = (8 * Z.of_nat (sig_bytes lg - 41))%Z) by (destruct Hlg as [->| ->]; reflexivity). lia. }
  assert (Be : body_bits lg e = bits_of body). { rewrite Ee. unfold body_bits. rewrite skipn_app, (skipn_all2 (_ :: salt)) by (cbn [length]; lia). cbn [length app]. rewrite Lsa. cbn [Nat.sub skipn]. rewrite firstn_app, Lb, Nat.sub_diag, firstn_O, app_nil_r, <- Lb, firstn_all. reflexivity. }
  assert (s2' = snd s). { rewrite Be, EB in Eb. exact (encs_inj _ _ _ _ Eb). } subst s2'.
  assert (BE : bytes e). { rewrite Ee. apply Forall_app. split; [apply Forall_cons; [destruct Hlg as [-> | ->]; split; reflexivity || discriminate|exact Bsa]|]. apply Forall_app. split; [exact Bb|]. apply Forall_forall. intros x Hx0. unfold bytes in Bsg. rewrite Forall_forall in Bsg. apply Bsg. rewrite <- (firstn_skipn (sig_bytes lg) sig). apply in_app_iff. right. exact Hx0. }
  assert (LE : (sig_bytes lg + 2 <= length e)%nat). { rewrite Ee, !app_length, skipn_length. cbn [length]. lia. }
  split; [|split; [exact Hx|]; split; [exact BE|]; split; [exact LE|]; split; [exact Bpk|exact Lpk]].
  destruct (small_in s Hn') as [S1 S2]. destruct Hs as ((Q1 & Q2 & Q3) & _).
  destruct V as (fuel0 & V).
  + apply Forall_forall. exact S2.
  + intros _ I6. rewrite <- EQ in Q3. apply In_nth with (d := 0%Z) in I6. destruct I6 as (i & Hi & E6). assert (Z6 := f_equal (fun l => nth i l 0%Z) Q3). cbv beta in Z6.
    rewrite !P_ntt.modq_nth, E6 in Z6. assert (A := S1 (nth i (fst s) 0%Z) ltac:(apply nth_In; lia)).
    change (6144 mod q)%Z with 6144%Z in Z6. assert (D := Z.div_mod (nth i (fst s) 0%Z) q ltac:(discriminate)). rewrite Z6 in D. unfold q in D. lia.
  + destruct (P_verifyx.hashed_fuel xof lg salt msg c (Hx _) Hc) as (f1 & HF).
    assert (Fs : firstn 40 (skipn 1 e) = salt). { rewrite Ee. cbn [app skipn]. rewrite firstn_app, Lsa, Nat.sub_diag, firstn_O, app_nil_r, <- Lsa. apply firstn_all. }
    apply (verify_refuel mo (Nat.max fuel0 f1) k xof lg pk msg e c Hlg Hx Bpk Lpk BE LE).
    * rewrite Fs. apply HF; [lia|apply repeat_length].
    * rewrite Fs. exact Eh.
    * apply V. lia.
Qed.

Theorem sign_checks lg (Hlg : falcon_lg lg) f g F_ G_ h0 h pk0 pk : sound_key lg f g F_ G_ -> length h0 = (2 ^ lg)%nat -> compute_public_key lg f g h0 = Ok h -> length pk0 = pkey_len lg -> encode_pkey lg h pk0 = Ok pk ->
  forall skey, decode_skey lg skey (repeat 0%Z (2 ^ lg)) (repeat 0%Z (2 ^ lg)) (repeat 0%Z (2 ^ lg)) = Ok (true, (f, g, F_)) ->
  forall msg salt sig k m n mo, length salt = 40%nat -> bytes salt -> bytes sig -> (sig_bytes lg + 2 <= length sig)%nat -> (1 <= m)%nat -> (36 * k * 2 ^ lg * m <= n)%nat ->
  1 - (981 / 1000) ^ (2 ^ lg) - unfit lg - bigs lg - (INR (2 * 2 ^ lg) * (2 / 2 ^ 34 + (11 / 12) ^ k) + 16 ^ 2 ^ lg / 8 ^ (68 * k)) <=
  prob (136 * k + n) (fun v => let xof := fun _ => stream (firstn (136 * k) v) in
    signs_valid (sign RF exact_table m k xof lg skey msg sig (stream (salt ++ skipn (136 * k) v))) (verify mo k xof lg pk msg)).
Proof.
  intros HS Lh HK Lpk0 HE skey HD msg salt sig k m n mo Lsa Bsa Bsg Ls Hm Hn.
  apply (sign_test lg Hlg f g F_ G_ h0 h HS Lh HK smallv (bigs lg)) with (skey := skey) (msg := msg) (salt := salt) (sig := sig) (m := m); try assumption; [|lia|].
  - intros WT TWT L NL DL. apply (bigs_mass lg Hlg WT TWT L NL). eapply Forall_impl; [|exact DL]. intros s [H1 H2]. split; [exact H1|]. unfold smallv in H2. apply Bool.negb_false_iff in H2. exact H2.
  - intros v c e s Lv Bv Eh Es Hs Hn' Eb. cbv zeta. rewrite Es. unfold signs_valid.
    destruct (sign_good lg Hlg f g F_ G_ h0 h pk0 pk HS Lh HK Lpk0 HE skey HD msg salt sig k m mo Lsa Bsa Bsg Ls v c e s Bv Eh Es Hs Hn' Eb) as [V _]. rewrite V. reflexivity.
Qed.
Lemma sign_checks_rare lg (Hlg : falcon_lg lg) f g F_ G_ h0 h pk0 pk : sound_key lg f g F_ G_ -> length h0 = (2 ^ lg)%nat -> compute_public_key lg f g h0 = Ok h -> length pk0 = pkey_len lg -> encode_pkey lg h pk0 = Ok pk ->
  forall skey, decode_skey lg skey (repeat 0%Z (2 ^ lg)) (repeat 0%Z (2 ^ lg)) (repeat 0%Z (2 ^ lg)) = Ok (true, (f, g, F_)) ->
  forall msg salt sig k m n mo, length salt = 40%nat -> bytes salt -> bytes sig -> (sig_bytes lg + 2 <= length sig)%nat -> (512 <= k)%nat -> (1 <= m)%nat -> (36 * k * 2 ^ lg * m <= n)%nat ->
  (if Nat.eqb lg 9 then 9999 / 10000 else 987 / 1000) <=
  prob (136 * k + n) (fun v => let xof := fun _ => stream (firstn (136 * k) v) in
    signs_valid (sign RF exact_table m k xof lg skey msg sig (stream (salt ++ skipn (136 * k) v))) (verify mo k xof lg pk msg)).
Proof.
  intros HS Lh HK Lpk0 HE skey HD msg salt sig k m n mo Lsa Bsa Bsg Ls Hk Hm Hn. eapply Rle_trans; [|exact (sign_checks lg Hlg f g F_ G_ h0 h pk0 pk HS Lh HK Lpk0 HE skey HD msg salt sig k m n mo Lsa Bsa Bsg Ls Hm Hn)].
  assert (A := tmass_small lg Hlg). assert (B := err_small lg k Hlg Hk). assert (C := hash_err lg k Hlg Hk).
  assert (D : INR (2 * 2 ^ lg) * (2 / 2 ^ 34 + (11 / 12) ^ k) <= 2 * (INR (2 * 2 ^ lg) * (/ 2 ^ 34 + (11 / 12) ^ k))).
  { assert (0 <= INR (2 * 2 ^ lg)) by apply pos_INR. assert (0 <= (11 / 12) ^ k) by (apply pow_le; lra). assert (0 <= INR (2 * 2 ^ lg) * (11 / 12) ^ k) by (apply Rmult_le_pos; assumption).
    replace (2 * (INR (2 * 2 ^ lg) * (/ 2 ^ 34 + (11 / 12) ^ k))) with (INR (2 * 2 ^ lg) * (2 / 2 ^ 34 + (11 / 12) ^ k) + INR (2 * 2 ^ lg) * (11 / 12) ^ k) by (unfold Rdiv; ring). lra. }
  set (a := (981 / 1000) ^ (2 ^ lg)) in *. set (b := INR (2 * 2 ^ lg) * (2 / 2 ^ 34 + (11 / 12) ^ k)) in *. set (b' := INR (2 * 2 ^ lg) * (/ 2 ^ 34 + (11 / 12) ^ k)) in *. set (c := 16 ^ 2 ^ lg / 8 ^ (68 * k)) in *. clearbody a b b' c.
  destruct Hlg as [-> | ->]; unfold unfit, bigs; cbn [Nat.eqb]; lra.
Qed.
Lemma big_share lg : falcon_lg lg ->
  let weight := fun s : list Z * list Z => exp (- (IZR (sqnorm (fst s) + sqnorm (snd s)) / (2 * (sigma_value RF lg * sigma_value RF lg)))) in
  exists W WB, 0 < W /\ total (fun s => length (fst s) = (2 ^ lg)%nat /\ length (snd s) = (2 ^ lg)%nat) weight W /\
    total (fun s => (length (fst s) = (2 ^ lg)%nat /\ length (snd s) = (2 ^ lg)%nat) /\ exists x, In x (fst s ++ snd s) /\ (1024 <= Z.abs x)%Z) weight WB /\
    WB <= (if Nat.eqb lg 9 then 1 / 50000 else 1 / 20000) * W.
Proof.
  intros Hlg weight. destruct (pair_total lg Hlg) as (W & W0 & TW). exists W.
  assert (B : forall L, NoDup L -> Forall (fun s => (length (fst s) = (2 ^ lg)%nat /\ length (snd s) = (2 ^ lg)%nat) /\ exists x, In x (fst s ++ snd s) /\ (1024 <= Z.abs x)%Z) L -> lsum weight L <= bigs lg * W).
  { intros L NL DL. apply (bigs_mass lg Hlg W TW L NL). eapply Forall_impl; [|exact DL]. intros s [H1 (x & Hx & H2)]. split; [exact H1|]. apply Bool.orb_true_iff. apply in_app_iff in Hx. destruct Hx as [Hx|Hx]; [left|right]; apply existsb_exists; exists x; (split; [exact Hx|apply Z.leb_le; exact H2]). }
  destruct (total_ex _ _ _ B) as [WB TB]. exists WB. split; [exact W0|]. split; [exact TW|]. split; [exact TB|]. apply (total_ub _ _ _ _ TB). exact B.
Qed.
Lemma k_checks : exists h skey pk, compute_public_key 9 P_key.kf P_key.kg (repeat 0%Z 512) = Ok h /\ encode_pkey 9 h (repeat 0%Z (pkey_len 9)) = Ok pk /\
    decode_skey 9 skey (repeat 0%Z 512) (repeat 0%Z 512) (repeat 0%Z 512) = Ok (true, (P_key.kf, P_key.kg, P_key.kF)) /\ sound_key 9 P_key.kf P_key.kg P_key.kF P_key.kG /\
    length (repeat 9%Z 40) = 40%nat /\ bytes (repeat 9%Z 40) /\ bytes (repeat 0%Z 668) /\ (sig_bytes 9 + 2 <= length (repeat 0%Z 668))%nat.
Proof.
  destruct k_signs as (h & skey & HK & _ & HD & HS & _). assert (K := HS). destruct K as (Lf & Lg & _ & _ & _ & _ & _ & _ & _ & Sf & Sg & HI).
  destruct (P_nttx.public_key_spec 9 P_key.kf P_key.kg (repeat 0%Z 512) (or_introl eq_refl) Lf Lg (repeat_length _ _) Sf Sg HI) as (h' & E' & Lh' & Ch & _). assert (h' = h) by congruence. subst h'.
  destruct (pk_round 9 h (repeat 0%Z (pkey_len 9)) (repeat 0%Z (2 ^ 9)) (or_introl eq_refl) Lh' ltac:(eapply Forall_impl; [|exact Ch]; intros a; apply P_ff.canon_lt14) (repeat_length _ _) (repeat_length _ _)) as (pk & Ep & _).
  exists h, skey, pk. split; [exact HK|]. split; [exact Ep|]. split; [exact HD|]. split; [exact HS|]. split; [reflexivity|].
  split; [apply Forall_forall; intros x Hx; apply repeat_spec in Hx; subst x; unfold byte; lia|]. split; [apply Forall_forall; intros x Hx; apply repeat_spec in Hx; subst x; unfold byte; lia|]. rewrite repeat_length. apply Nat.leb_le. reflexivity.
Qed.
