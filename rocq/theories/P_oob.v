(** P_oob.v -- verification of a signature that lies in a buffer of exactly the length of a signature. *)
From Verif Require Import Base Poly Spec SpecR SpecS SpecG SpecJ SpecH SpecM SpecW M_ff M_codec M_ntt M_sig M_verify M_float M_exact M_samp M_fft M_ntru M_tree P_codec P_keys P_sig P_comp P_sigx P_prob P_gsum P_jprob P_jgauss P_jkey P_jcoset P_kubx P_hash P_loop P_loopk P_loops P_widek P_sim P_fitm P_fits P_ver P_vers P_simsig P_twist P_res.
From Verif Require P_key P_decomp P_ff P_ntt P_nttx P_sign P_signx P_signv P_verifyx P_signb P_defx.
From Coq Require Import Lra.

(** ** a signature in a buffer of any length, followed by two more bytes *)
Section Key.
Open Scope Z_scope.
Variable lg : nat.
Hypothesis Hlg : falcon_lg lg.
Notation N := (2 ^ lg)%nat.
Variables f g F_ G_ : list Z.
Hypothesis Lf : length f = N.
Hypothesis Lg : length g = N.
Hypothesis LF : length F_ = N.
Hypothesis LG : length G_ = N.
Hypothesis HN : ntru N f g F_ G_.
Variable xof : list Z -> nat -> Z.
Hypothesis Hx : forall a, byte_stream (xof a).
Hypothesis Sf : Forall smallq f.
Hypothesis Sg : Forall smallq g.
Hypothesis HI : is_poly_invertible lg f = Ok true.
Lemma sign_bt_padded fuel sfuel B T msg sig rng pos sig' pos' h0 h pk0 pk : (sig_bytes lg <= length sig)%nat -> byte_stream rng ->
  length h0 = N -> length pk0 = pkey_len lg -> compute_public_key lg f g h0 = Ok h -> encode_pkey lg h pk0 = Ok pk ->
  compute_matrix_B RF exact_table lg f g F_ G_ = Ok B ->
  sign_bt RF exact_table fuel sfuel xof lg B T msg sig rng pos = Ok (sig', pos') ->
  let salt := map (fun i => rng (pos + i)%nat) (seq 0 40) in
  exists c s1 s2 body, hashed (xof (salt ++ msg)) lg c /\ length s1 = N /\ length s2 = N /\
    modq s1 = s1_residues lg c s2 h /\ length body = (sig_bytes lg - 41)%nat /\
    bytes body /\ tot s2 < body_len lg /\ bits_of body = encs s2 ++ repeat false (Z.to_nat (body_len lg - tot s2)) /\
    sig' = (48 + Z.of_nat lg :: salt) ++ body ++ skipn (sig_bytes lg) sig /\
    (Forall (fun v => Z.abs v <= 1023) s2 -> (lg = 10%nat -> ~ In 6144 s1) ->
      forall x, bytes x -> (2 <= length x)%nat -> exists fuel0, forall fuel m, (fuel0 <= fuel)%nat -> verify m fuel xof lg pk msg (((48 + Z.of_nat lg :: salt) ++ body) ++ x) = Ok true).
Proof.
  intros Ls Hr Lh0 Lpk0 HK HE HB H salt. destruct (P_signv.salt_facts rng pos Hr) as [Lsalt Bsalt]. fold salt in Lsalt, Bsalt. destruct (sig_dims lg Hlg) as (D1 & D2 & _).
  destruct (P_signv.sign_bt_vector lg Hlg f g F_ G_ Lf Lg LF LG HN xof Hx _ _ _ _ _ _ _ _ _ _ Ls HB H) as (c & z0 & z1 & s1 & s2 & body & Hc & L0 & L1 & E1 & E2 & Bn & Lb & Bb & Tt & Kb & E). fold salt in Hc, E.
  exists c, s1, s2, body. split; [exact Hc|]. split; [rewrite E1; apply tab_length|]. assert (L2 : length s2 = N) by (rewrite E2; apply tab_length). split; [exact L2|].
  destruct (P_nttx.public_key_spec lg f g h0 Hlg Lf Lg Lh0 Sf Sg HI) as (h' & Eh & Lh & Ch & HP & _). assert (h' = h) by congruence. subst h'.
  split; [rewrite E1, E2; symmetry; apply (P_verifyx.sign_equation lg f g F_ G_ h z0 z1 c Hlg Lf Lg LF LG Lh HN (P_signv.invertible_unit lg Hlg f Lf Sf HI) HP)|].
  repeat (split; [assumption|]). intros S2 NI x Bx Lx.
  set (e := (48 + Z.of_nat lg :: salt) ++ body). rewrite E1 in NI, Bn. rewrite E2 in S2, Bn.
  refine (P_verifyx.completeness lg f g F_ G_ h0 h pk0 pk z0 z1 c salt msg e x xof Hlg Hx Lf Lg LF LG Sf Sg Lh0 Lpk0 HN HI HK HE Lsalt Bsalt Bx Lx Hc Bn S2 NI _).
  exists (repeat 0 (sig_bytes lg - 41)). split; [apply repeat_length|]. split; [apply P_nttx.Forall_rep; unfold byte; lia|].
  set (buf := (48 + Z.of_nat lg :: salt) ++ repeat 0 (sig_bytes lg - 41)).
  assert (Lbuf : length buf = sig_bytes lg) by (unfold buf; cbn [length app]; rewrite app_length, repeat_length, Lsalt; lia).
  rewrite E2 in L2, Tt, Kb. destruct (compress_ok lg _ buf Hlg L2 ltac:(lia)) as [K1 _].
  destruct K1 as (body' & E' & B' & L' & K & _); [assert (body_len lg <= 14 * 2 ^ Z.of_nat lg) by (destruct Hlg as [->| ->]; vm_compute; congruence); lia|].
  rewrite E'. rewrite (proj2 (Z.ltb_lt _ _) Tt). specialize (K Tt). rewrite <- Kb in K. apply P_sig.bits_of_inj in K; [|assumption|assumption]. subst body'.
  unfold e. do 3 f_equal.
Qed.
End Key.
Open Scope R_scope.

(** ** what verify does with it in a buffer without slack *)
Lemma verify_exact mo k xof lg pk msg e (s : list Z * list Z) : falcon_lg lg -> bytes e -> length e = sig_bytes lg -> nth 0 e 0%Z = (48 + Z.of_nat lg)%Z -> body_bits lg e = wire lg s ->
  length (snd s) = (2 ^ lg)%nat -> Forall (fun v => Z.abs v <= 1023)%Z (snd s) -> (8 <= body_len lg - Spec.tot (snd s))%Z -> verify mo k xof lg pk msg (e ++ [0%Z; 0%Z]) = Ok true ->
  (((body_len lg - Spec.tot (snd s)) mod 8 = 0)%Z -> verify mo k xof lg pk msg e = UB) /\ (((body_len lg - Spec.tot (snd s)) mod 8 <> 0)%Z -> verify mo k xof lg pk msg e = Ok true).
Proof.
  intros Hlg Be Le E0 Eb L2 S2 H8 V. destruct (sig_dims lg Hlg) as (D1 & D2 & D3 & D4). set (p0 := repeat 0%Z (2 ^ lg)). assert (Lp : length p0 = (2 ^ lg)%nat) by apply repeat_length.
  destruct (encs_words (snd s) S2) as [F2 C]. assert (Eb' := Eb). rewrite <- C in Eb'.
  unfold verify in V. apply bind_Ok in V. destruct V as [[d h] [Ed V]]. cbv beta iota in V. destruct d; [|discriminate]. cbn [negb] in V. unfold verify. rewrite Ed. cbn [bind negb].
  assert (HD : Z.lor 48 (Z.of_nat lg) = (48 + Z.of_nat lg)%Z) by (destruct Hlg as [-> | ->]; reflexivity).
  assert (DE : decode_sig lg e (repeat 0%Z 40) p0 = bind (decompress_sig lg e p0) (fun x => let '(b, s) := x in if negb b then Ok (false, repeat 0%Z 40, s) else Ok (true, firstn 40 (skipn 1 e), s))).
  { unfold decode_sig. rewrite (rd_Ok e 0 0%Z) by lia. cbn [bind]. rewrite HD, E0, Z.eqb_refl. cbn [negb]. destruct (decompress_sig lg e p0) as [[b s']| |]; [|reflexivity|reflexivity]. cbn [bind]. destruct b; [|reflexivity]. cbn [negb].
    rewrite rds_ok by lia. cbn [bind]. rewrite wrs_all by (rewrite slice_length by lia; apply repeat_length). reflexivity. }
  split; intros M.
  - unfold verify_h. fold p0. rewrite DE. rewrite (P_decomp.exact_ub lg e p0 (snd s) Hlg Be Le Lp L2 (map enc (snd s)) (Z.to_nat (body_len lg - Spec.tot (snd s))) F2); [reflexivity|lia| |exact Eb'].
    apply Nat2Z.inj. rewrite Nat2Z.inj_mod, Z2Nat.id by lia. exact M.
  - assert (X : decode_sig lg e (repeat 0%Z 40) p0 = decode_sig lg (e ++ [0%Z; 0%Z]) (repeat 0%Z 40) p0); [|unfold verify_h in *; fold p0 in V |- *; rewrite X; exact V].
    rewrite DE. rewrite (P_decomp.exact_ok lg e p0 (snd s) Hlg Be Le Lp L2 (map enc (snd s)) (Z.to_nat (body_len lg - Spec.tot (snd s))) F2); [|lia| |exact Eb'].
    2: { intros Q. apply M. apply (f_equal Z.of_nat) in Q. rewrite Nat2Z.inj_mod, Z2Nat.id in Q by lia. exact Q. }
    cbn [bind negb]. assert (Bx : bytes (e ++ [0%Z; 0%Z])) by (apply Forall_app; split; [exact Be|]; repeat (apply Forall_cons; [unfold byte; lia|]); apply Forall_nil).
    assert (Lx : (sig_bytes lg + 2 <= length (e ++ [0%Z; 0%Z]))%nat) by (rewrite app_length; cbn [length]; lia).
    destruct (decode_sig_ok lg (e ++ [0%Z; 0%Z]) (repeat 0%Z 40) p0 Hlg Bx Lx (repeat_length _ _) Lp) as (b & salt & s' & -> & _ & _ & G1 & G2).
    assert (N0 : nth 0 (e ++ [0%Z; 0%Z]) 0%Z = (48 + Z.of_nat lg)%Z) by (rewrite app_nth1 by lia; exact E0).
    assert (AC : accepts lg (e ++ [0%Z; 0%Z]) (snd s)).
    { split; [exact L2|]. exists (map enc (snd s)), (Z.to_nat (body_len lg - Spec.tot (snd s))). split; [exact F2|]. split; [lia|]. rewrite <- Eb'. unfold body_bits. rewrite skipn_app, firstn_app, skipn_length, Le, Nat.sub_diag, firstn_O, app_nil_r. reflexivity. }
    destruct (G2 _ N0 AC) as [-> ->]. destruct (G1 eq_refl) as (_ & -> & _). do 3 f_equal. rewrite skipn_app, firstn_app, skipn_length. replace (40 - (length e - 1))%nat with 0%nat by lia. rewrite firstn_O, app_nil_r. reflexivity.
Qed.
Lemma sign_exact lg (Hlg : falcon_lg lg) f g F_ G_ h0 h pk0 pk : sound_key lg f g F_ G_ -> length h0 = (2 ^ lg)%nat -> compute_public_key lg f g h0 = Ok h -> length pk0 = pkey_len lg -> encode_pkey lg h pk0 = Ok pk ->
  forall skey, decode_skey lg skey (repeat 0%Z (2 ^ lg)) (repeat 0%Z (2 ^ lg)) (repeat 0%Z (2 ^ lg)) = Ok (true, (f, g, F_)) ->
  forall msg salt sig k m mo, length salt = 40%nat -> bytes salt -> length sig = sig_bytes lg ->
  forall v c e s, bytes v -> let xof := fun _ => stream (firstn (136 * k) v) in hash_to_point k xof lg salt msg (repeat 0%Z (2 ^ lg)) = Ok c ->
    sign RF exact_table m k xof lg skey msg sig (stream (salt ++ skipn (136 * k) v)) = Ok (true, e) ->
    signable lg c h s -> smallv s = true -> body_bits lg e = wire lg s ->
    verify mo k xof lg pk msg (e ++ [0%Z; 0%Z]) = Ok true /\ bytes e /\ length e = sig_bytes lg /\ nth 0 e 0%Z = (48 + Z.of_nat lg)%Z /\ length (snd s) = (2 ^ lg)%nat /\ (Spec.tot (snd s) < body_len lg)%Z.
Proof.
  intros HS Lh HK Lpk0 HE skey HD msg salt sig k m mo Lsa Bsa Ls v c e s Bv xof Eh Es Hs Hn' Eb.
  assert (Bv1 : bytes (firstn (136 * k) v)) by (apply Forall_forall; intros x Hx; unfold bytes in Bv; rewrite Forall_forall in Bv; apply Bv; rewrite <- (firstn_skipn (136 * k) v); apply in_app_iff; left; exact Hx).
  assert (Bv2 : bytes (skipn (136 * k) v)) by (apply Forall_forall; intros x Hx; unfold bytes in Bv; rewrite Forall_forall in Bv; apply Bv; rewrite <- (firstn_skipn (136 * k) v); apply in_app_iff; right; exact Hx).
  assert (Hx : forall a, byte_stream (xof a)) by (intros a; apply stream_bytes; exact Bv1).
  assert (Hr : byte_stream (stream (salt ++ skipn (136 * k) v))) by (apply stream_bytes, Forall_app; split; assumption).
  destruct HS as (Lf & Lg & LF & LG & HN & _ & _ & _ & BG & Sf & Sg & HI).
  assert (RG : Forall (fun x => -2147483648 <= x <= 2147483647)%Z G_). { refine (Forall_impl _ _ BG). intros x Hx0. cbv beta in Hx0. lia. }
  destruct (P_signv.sign_unfold lg Hlg f g F_ G_ Lf Lg LF LG HN xof Hx Sf HI RG _ _ _ _ _ _ _ _ HD Es) as (_ & B & T & p & EB & _ & ES).
  assert (X := sign_bt_padded lg Hlg f g F_ G_ Lf Lg LF LG HN xof Hx Sf Sg HI m k B T msg sig _ 0 e p h0 h pk0 pk ltac:(lia) Hr Lh Lpk0 HK HE EB ES). cbv zeta in X.
  assert (EZ : map (fun i => stream (salt ++ skipn (136 * k) v) (0 + i)%nat) (seq 0 40) = salt) by (etransitivity; [|exact (stream_salt lg h0 Lh salt (skipn (136 * k) v) Lsa)]; apply map_ext; intros i; reflexivity). rewrite EZ in X.
  destruct X as (c' & s1' & s2' & body & Hc' & L1 & L2 & EQ & Lb & Bb & TB & EBB & Ee & V).
  assert (Hc := P_verifyx.hash_hashed k xof lg salt msg _ c (Hx _) (repeat_length _ _) Eh). assert (c' = c) by exact (P_verifyx.hashed_unique _ _ _ _ Hc' Hc). subst c'.
  destruct (sig_dims lg Hlg) as (D1 & D2 & D3 & D4).
  destruct (P_nttx.public_key_spec lg f g h0 Hlg Lf Lg Lh Sf Sg HI) as (h' & E' & Lh' & Ch & _). assert (h' = h) by congruence. subst h'.
  destruct (pk_round lg h pk0 (repeat 0%Z (2 ^ lg)) Hlg Lh' ltac:(eapply Forall_impl; [|exact Ch]; intros a; apply P_ff.canon_lt14) Lpk0 (repeat_length _ _)) as (pk' & Ep & Lpk & Bpk & _). assert (pk' = pk) by congruence. subst pk'.
  rewrite skipn_all2, app_nil_r in Ee by lia.
  assert (Be : body_bits lg e = bits_of body). { rewrite Ee. unfold body_bits. rewrite skipn_app, (skipn_all2 (_ :: salt)) by (cbn [length]; lia). cbn [length app]. rewrite Lsa. cbn [Nat.sub skipn]. rewrite <- Lb, firstn_all. reflexivity. }
  assert (s2' = snd s). { rewrite Be, EBB in Eb. exact (encs_inj _ _ _ _ Eb). } subst s2'.
  assert (BE : bytes e). { rewrite Ee. apply Forall_app. split; [apply Forall_cons; [destruct Hlg as [-> | ->]; split; reflexivity || discriminate|exact Bsa]|exact Bb]. }
  assert (LE : length e = sig_bytes lg). { rewrite Ee, !app_length. cbn [length]. lia. }
  split; [|split; [exact BE|]; split; [exact LE|]; split; [rewrite Ee; reflexivity|]; split; [exact L2|exact TB]].
  destruct (small_in s Hn') as [S1 S2]. destruct Hs as ((Q1 & Q2 & Q3) & _).
  assert (B00 : bytes [0%Z; 0%Z]) by (repeat (apply Forall_cons; [unfold byte; lia|]); apply Forall_nil).
  destruct V with (x := [0%Z; 0%Z]) as (fuel0 & W).
  + apply Forall_forall. exact S2.
  + intros _ I6. rewrite <- EQ in Q3. apply In_nth with (d := 0%Z) in I6. destruct I6 as (i & Hi & E6). assert (Z6 := f_equal (fun l => nth i l 0%Z) Q3). cbv beta in Z6.
    rewrite !P_ntt.modq_nth, E6 in Z6. assert (A := S1 (nth i (fst s) 0%Z) ltac:(apply nth_In; lia)).
    change (6144 mod q)%Z with 6144%Z in Z6. assert (D := Z.div_mod (nth i (fst s) 0%Z) q ltac:(discriminate)). rewrite Z6 in D. unfold q in D. lia.
  + exact B00.
  + cbn [length]. lia.
  + rewrite <- Ee in W. destruct (P_verifyx.hashed_fuel xof lg salt msg c (Hx _) Hc) as (f1 & HF).
    assert (Fs : firstn 40 (skipn 1 (e ++ [0%Z; 0%Z])) = salt). { rewrite Ee, <- app_assoc. cbn [app skipn]. rewrite firstn_app, Lsa, Nat.sub_diag, firstn_O, app_nil_r, <- Lsa. apply firstn_all. }
    apply (verify_refuel mo (Nat.max fuel0 f1) k xof lg pk msg (e ++ [0%Z; 0%Z]) c Hlg Hx Bpk Lpk).
    * apply Forall_app. split; assumption.
    * rewrite app_length. cbn [length]. lia.
    * rewrite Fs. apply HF; [lia|apply repeat_length].
    * rewrite Fs. exact Eh.
    * apply W. lia.
Qed.
Lemma levs_padding lg (s : list Z) : falcon_lg lg -> length s = (2 ^ lg)%nat -> ((body_len lg - Spec.tot s) mod 8 = 0)%Z <-> (levs s mod 8 = 0)%nat.
Proof.
  intros Hlg Ls. rewrite levs_tot, Ls. assert (E : exists a, (body_len lg - 9 * Z.of_nat (2 ^ lg) = 8 * a)%Z) by (destruct Hlg as [-> | ->]; [exists 49%Z|exists 87%Z]; reflexivity). destruct E as [a E].
  replace (body_len lg - (9 * Z.of_nat (2 ^ lg) + Z.of_nat (levs s)))%Z with (- Z.of_nat (levs s) + a * 8)%Z by lia. rewrite Z.mod_add by lia.
  assert (B : (levs s mod 8 = 0)%nat <-> (Z.of_nat (levs s) mod 8 = 0)%Z). { change 8%Z with (Z.of_nat 8). rewrite <- Nat2Z.inj_mod. lia. } rewrite B. split; intros H.
  - rewrite <- (Z.opp_involutive (Z.of_nat (levs s))). apply Z.mod_opp_l_z; [lia|exact H].
  - apply Z.mod_opp_l_z; [lia|exact H].
Qed.

(** ** how often *)
Definition even8 (s : list Z * list Z) : bool := Nat.eqb (levs (snd s) mod 8) 0.
Section Often.
Variables (lg : nat) (Hlg : falcon_lg lg) (f g F_ G_ h0 h pk0 pk : list Z).
Hypotheses (HS : sound_key lg f g F_ G_) (Lh : length h0 = (2 ^ lg)%nat) (HK : compute_public_key lg f g h0 = Ok h) (Lpk0 : length pk0 = pkey_len lg) (HE : encode_pkey lg h pk0 = Ok pk).
Variable skey : list Z.
Hypothesis HD : decode_skey lg skey (repeat 0%Z (2 ^ lg)) (repeat 0%Z (2 ^ lg)) (repeat 0%Z (2 ^ lg)) = Ok (true, (f, g, F_)).
Variables (msg salt sig : list Z) (k m n : nat) (mo : ovf).
Hypotheses (Lsa : length salt = 40%nat) (Bsa : bytes salt) (Ls : length sig = sig_bytes lg) (Hk : (512 <= k)%nat) (Hm : (1 <= m)%nat) (Hn : (36 * k * 2 ^ lg * m <= n)%nat).
Lemma big_part WT L : total (pairN lg) (fun s => wts lg s) WT -> NoDup L -> (forall s, In s L -> pairN lg s) -> lsum (fun s => wts lg s) (filter (fun s => negb (smallv s)) L) <= bigs lg * WT.
Proof.
  intros TWT NL DL. apply (bigs_mass lg Hlg WT TWT); [apply NoDup_filter; exact NL|]. apply Forall_forall. intros s Hs. apply filter_In in Hs. destruct Hs as [Hs E]. split; [apply DL, Hs|]. unfold smallv in E. rewrite Bool.negb_involutive in E. exact E.
Qed.
Lemma outside_often : (if Nat.eqb lg 9 then 119 / 1000 else 106 / 1000) <=
  prob (136 * k + n) (fun v => let xof := fun _ => stream (firstn (136 * k) v) in
    signs_outside (sign RF exact_table m k xof lg skey msg sig (stream (salt ++ skipn (136 * k) v))) (verify mo k xof lg pk msg)).
Proof.
  apply Rle_trans with (1 - (981 / 1000) ^ (2 ^ lg) - unfit lg - (bigs lg + 88 / 100) - (INR (2 * 2 ^ lg) * (2 / 2 ^ 34 + (11 / 12) ^ k) + 16 ^ 2 ^ lg / 8 ^ (68 * k))).
  - assert (A := slack_small lg k Hlg Hk). unfold slack in A. destruct Hlg as [-> | ->]; unfold bigs; cbn [Nat.eqb] in *; lra.
  - apply (sign_test lg Hlg f g F_ G_ h0 h HS Lh HK (fun s => smallv s && even8 s) (bigs lg + 88 / 100)) with (skey := skey) (msg := msg) (salt := salt) (sig := sig) (m := m); try assumption; [|lia|].
    + intros WT TWT L NL DL. rewrite Forall_forall in DL. rewrite (lsum_part smallv). rewrite Rmult_plus_distr_r, Rplus_comm. apply Rplus_le_compat.
      * apply big_part; [exact TWT|exact NL|]. intros s Hs. apply DL, Hs.
      * apply (residue_rest lg Hlg WT TWT); [apply NoDup_filter; exact NL|]. apply Forall_forall. intros s Hs. apply filter_In in Hs. destruct Hs as [Hs E]. split; [apply DL, Hs|]. destruct (DL s Hs) as [_ N]. rewrite E in N. cbn [andb] in N. apply Nat.eqb_neq. exact N.
    + intros v c e s Lv Bv Eh Es Hs Hn' Eb. cbv zeta. rewrite Es. apply Bool.andb_true_iff in Hn'. destruct Hn' as [N1 N2]. apply Nat.eqb_eq in N2.
      destruct (sign_exact lg Hlg f g F_ G_ h0 h pk0 pk HS Lh HK Lpk0 HE skey HD msg salt sig k m mo Lsa Bsa Ls v c e s Bv Eh Es Hs N1 Eb) as (V & Be & Le & E0 & L2 & Tt).
      destruct (small_in s N1) as [_ S2]. apply (levs_padding lg (snd s) Hlg L2) in N2.
      destruct (verify_exact mo k (fun _ : list Z => stream (firstn (136 * k) v)) lg pk msg e s Hlg Be Le E0 Eb L2 (proj2 (Forall_forall _ _) S2)) as [U _]; [|exact V|unfold signs_outside; rewrite (U N2); reflexivity].
      assert (D := Z.div_mod (body_len lg - Spec.tot (snd s)) 8 ltac:(lia)). lia.
Qed.
Lemma inside_often : (if Nat.eqb lg 9 then 839 / 1000 else 74 / 100) <=
  prob (136 * k + n) (fun v => let xof := fun _ => stream (firstn (136 * k) v) in
    signs_valid (sign RF exact_table m k xof lg skey msg sig (stream (salt ++ skipn (136 * k) v))) (verify mo k xof lg pk msg)).
Proof.
  apply Rle_trans with (1 - (981 / 1000) ^ (2 ^ lg) - unfit lg - (bigs lg + (tight lg + 16 / 100)) - (INR (2 * 2 ^ lg) * (2 / 2 ^ 34 + (11 / 12) ^ k) + 16 ^ 2 ^ lg / 8 ^ (68 * k))).
  - assert (A := slack_small lg k Hlg Hk). unfold slack in A. destruct Hlg as [-> | ->]; unfold bigs, tight; cbn [Nat.eqb] in *; lra.
  - apply (sign_test lg Hlg f g F_ G_ h0 h HS Lh HK (fun s => smallv s && ((Spec.tot (snd s) <? body_len lg - 16)%Z && negb (even8 s))) (bigs lg + (tight lg + 16 / 100))) with (skey := skey) (msg := msg) (salt := salt) (sig := sig) (m := m); try assumption; [|lia|].
    + intros WT TWT L NL DL. rewrite Forall_forall in DL. rewrite (lsum_part smallv). rewrite Rmult_plus_distr_r, Rplus_comm. apply Rplus_le_compat.
      * apply big_part; [exact TWT|exact NL|]. intros s Hs. apply DL, Hs.
      * set (L' := filter smallv L). assert (NL' : NoDup L') by (apply NoDup_filter; exact NL).
        assert (DL' : forall s, In s L' -> pairN lg s /\ (Spec.tot (snd s) <? body_len lg - 16)%Z && negb (even8 s) = false). { intros s Hs. apply filter_In in Hs. destruct Hs as [Hs E]. destruct (DL s Hs) as [P N]. rewrite E in N. split; [exact P|exact N]. }
        rewrite (lsum_part (fun s => (Spec.tot (snd s) <? body_len lg - 16)%Z)). rewrite Rmult_plus_distr_r, Rplus_comm. apply Rplus_le_compat.
        -- apply (tight_mass lg Hlg WT TWT); [apply NoDup_filter; exact NL'|]. apply Forall_forall. intros s Hs. apply filter_In in Hs. destruct Hs as [Hs E]. split; [apply DL', Hs|]. apply Bool.negb_true_iff, Z.ltb_ge in E. exact E.
        -- destruct (total_ex (fun s => pairN lg s /\ (levs (snd s) mod 8)%nat = 0%nat) (fun s => wts lg s) WT) as [W0 HW]; [intros l Nl Dl; apply (total_le _ _ _ l TWT Nl); eapply Forall_impl; [|exact Dl]; intros s H; apply H|].
           eapply Rle_trans; [|apply (residue_mass lg Hlg WT TWT 0%nat ltac:(lia) W0 HW)]. apply (total_le _ _ _ _ HW); [apply NoDup_filter; exact NL'|]. apply Forall_forall. intros s Hs. apply filter_In in Hs. destruct Hs as [Hs E]. destruct (DL' s Hs) as [P N]. split; [exact P|].
           rewrite E in N. cbn [andb] in N. apply Bool.negb_false_iff, Nat.eqb_eq in N. exact N.
    + intros v c e s Lv Bv Eh Es Hs Hn' Eb. cbv zeta. rewrite Es. apply Bool.andb_true_iff in Hn'. destruct Hn' as [N1 N2]. apply Bool.andb_true_iff in N2. destruct N2 as [N2 N3]. apply Z.ltb_lt in N2. apply Bool.negb_true_iff, Nat.eqb_neq in N3.
      destruct (sign_exact lg Hlg f g F_ G_ h0 h pk0 pk HS Lh HK Lpk0 HE skey HD msg salt sig k m mo Lsa Bsa Ls v c e s Bv Eh Es Hs N1 Eb) as (V & Be & Le & E0 & L2 & Tt).
      destruct (small_in s N1) as [_ S2]. assert (N4 : ((body_len lg - Spec.tot (snd s)) mod 8 <> 0)%Z) by (intros Q; apply N3; apply (levs_padding lg (snd s) Hlg L2); exact Q).
      destruct (verify_exact mo k (fun _ : list Z => stream (firstn (136 * k) v)) lg pk msg e s Hlg Be Le E0 Eb L2 (proj2 (Forall_forall _ _) S2)) as [_ U]; [lia|exact V|unfold signs_valid; rewrite (U N4); reflexivity].
Qed.
End Often.
Lemma and_iff_compat_l_weak (A B C : Prop) : (A -> (B <-> C)) -> (A /\ B <-> A /\ C).
Proof. tauto. Qed.
Lemma remainder_shares lg : falcon_lg lg ->
  let weight := fun s : list Z * list Z => exp (- (IZR (sqnorm (fst s) + sqnorm (snd s)) / (2 * (sigma_value RF lg * sigma_value RF lg)))) in
  exists W, 0 < W /\ total (fun s => length (fst s) = (2 ^ lg)%nat /\ length (snd s) = (2 ^ lg)%nat) weight W /\
    forall r, (0 <= r < 8)%Z -> exists Wr, total (fun s => (length (fst s) = (2 ^ lg)%nat /\ length (snd s) = (2 ^ lg)%nat) /\ (Spec.tot (snd s) mod 8 = r)%Z) weight Wr /\ 12 / 100 * W <= Wr <= 16 / 100 * W.
Proof.
  intros Hlg weight. destruct (pair_total lg Hlg) as (W & W0 & TW). exists W. split; [exact W0|]. split; [exact TW|]. intros r Hr.
  destruct (total_ex (fun s => pairN lg s /\ (levs (snd s) mod 8)%nat = Z.to_nat r) (fun s => wts lg s) W) as [Wr HW]; [intros l Nl Dl; apply (total_le _ _ _ l TW Nl); eapply Forall_impl; [|exact Dl]; intros s H; apply H|].
  exists Wr. split; [|apply (residue_mass lg Hlg W TW (Z.to_nat r) ltac:(lia) Wr HW)].
  eapply total_iff; [|exact HW]. intros s. cbv beta. apply and_iff_compat_l_weak. intros [_ L2]. rewrite levs_tot, L2.
  assert (E : exists a, (9 * Z.of_nat (2 ^ lg) = 8 * a)%Z) by (destruct Hlg as [-> | ->]; [exists 576%Z|exists 1152%Z]; reflexivity). destruct E as [a ->].
  replace (8 * a + Z.of_nat (levs (snd s)))%Z with (Z.of_nat (levs (snd s)) + a * 8)%Z by lia. rewrite Z.mod_add by lia. change 8%Z with (Z.of_nat 8). rewrite <- Nat2Z.inj_mod. lia.
Qed.
Lemma k_exact : exists h skey pk, compute_public_key 9 P_key.kf P_key.kg (repeat 0%Z 512) = Ok h /\ encode_pkey 9 h (repeat 0%Z (pkey_len 9)) = Ok pk /\
    decode_skey 9 skey (repeat 0%Z 512) (repeat 0%Z 512) (repeat 0%Z 512) = Ok (true, (P_key.kf, P_key.kg, P_key.kF)) /\ sound_key 9 P_key.kf P_key.kg P_key.kF P_key.kG /\
    length (repeat 9%Z 40) = 40%nat /\ bytes (repeat 9%Z 40) /\ length (repeat 0%Z 666) = sig_bytes 9.
Proof. destruct k_checks as (h & skey & pk & H1 & H2 & H3 & H4 & H5 & H6 & _). exists h, skey, pk. repeat (split; [assumption|]). rewrite repeat_length. reflexivity. Qed.
