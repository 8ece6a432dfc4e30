(** P_twist.v -- nearly every honest signature can be changed without the key. *)
From Verif Require Import Base Spec SpecT SpecR SpecS SpecG SpecJ SpecH SpecM M_ff M_codec M_ntt M_sig M_verify M_float M_exact M_samp M_fft M_ntru M_tree P_codec P_keys P_sig P_comp P_sigx P_prob P_gsum P_jprob P_jgauss P_jkey P_jcoset P_kubx P_hash P_loop P_loopk P_loops P_widek P_sim P_fitm P_fits P_ver P_vers.
From Verif Require P_key P_decomp P_verifyx P_genlaw.
From Coq Require Import Lra.
Open Scope R_scope.

Lemma pack_ok n l : length l = (8 * n)%nat -> bytes (pack n l) /\ length (pack n l) = n /\ bits_of (pack n l) = l.
Proof.
  revert l. induction n as [|n IH]; intros l L.
  - destruct l; [|discriminate]. split; [constructor|]. split; reflexivity.
  - destruct (IH (skipn 8 l)) as (Hb & Lb & Eb); [rewrite skipn_length; lia|]. assert (L8 : length (firstn 8 l) = 8%nat) by (rewrite firstn_length; lia).
    destruct (byte_bits_bv _ L8) as [B1 B2]. cbn [pack]. split; [constructor; assumption|]. split; [cbn [length]; lia|]. unfold bits_of in *. cbn [flat_map]. rewrite B2, Eb. apply firstn_skipn.
Qed.
Lemma pack_long n l l' : length l = (8 * n)%nat -> pack n (l ++ l') = pack n l.
Proof.
  revert l. induction n as [|n IH]; intros l L; [reflexivity|]. cbn [pack]. f_equal.
  - rewrite firstn_app. replace (8 - length l)%nat with 0%nat by lia. rewrite firstn_O, app_nil_r. reflexivity.
  - rewrite skipn_app. replace (8 - length l)%nat with 0%nat by lia. rewrite skipn_O. apply IH. rewrite skipn_length. lia.
Qed.
Lemma recode_ok s : Forall (fun x => (Z.abs x <= 1023)%Z) s -> (exists c, In c s /\ (Z.abs c <= 127)%Z) ->
  exists ws, Forall2 codeword ws s /\ concat ws = recode s /\ (Z.of_nat (length (recode s)) = stot s + 16)%Z.
Proof.
  induction s as [|c r IH]; intros F (x & Hx & Hs); [destruct Hx|]. assert (Fc := Forall_inv F). assert (Fr := Forall_inv_tail F). cbn [recode]. destruct (Z.leb_spec (Z.abs c) 127) as [S|S].
  - destruct (encs_words r Fr) as [W E]. exists (long_form c false :: map enc r). split; [constructor; [apply long_form_codeword; exact S|exact W]|]. split.
    + cbn [concat]. rewrite E. unfold long_form. cbn [app repeat Nat.mul Nat.add]. rewrite <- !app_assoc. reflexivity.
    + rewrite app_length. cbn [length]. rewrite !app_length, low7_length. cbn [length repeat]. assert (EL := encs_length r).
      change (stot (c :: r)) with (enc_len c + stot r)%Z. unfold enc_len. rewrite (Z.div_small (Z.abs c) 128) by lia. lia.
  - destruct IH as (ws & W & E & L); [exact Fr| |].
    + destruct Hx as [->|Hx]; [lia|]. exists x. split; assumption.
    + exists (enc c :: ws). split; [constructor; [apply enc_codeword; exact Fc|exact W]|]. split; [cbn [concat]; rewrite E; reflexivity|]. rewrite app_length, Nat2Z.inj_add, L. assert (EL := enc_length c). change (stot (c :: r)) with (enc_len c + stot r)%Z. lia.
Qed.
Lemma recode_diff s y z : (exists c, In c s /\ (Z.abs c <= 127)%Z) -> recode s ++ y <> encs s ++ z.
Proof.
  induction s as [|c r IH]; intros (x & Hx & Hs); [destruct Hx|]. cbn [recode]. change (encs (c :: r)) with (enc c ++ encs r). destruct (Z.leb_spec (Z.abs c) 127) as [S|S].
  - unfold enc. rewrite (Z.div_small (Z.abs c) 128) by lia. intros E. rewrite <- !app_assoc in E. apply (f_equal (@tl bool)) in E. rewrite <- !app_comm_cons in E. cbn [tl] in E. rewrite <- ?app_assoc in E. apply app_inv_head in E. discriminate E.
  - rewrite <- !app_assoc. intros E. apply app_inv_head in E. revert E. apply IH. destruct Hx as [->|Hx]; [lia|]. exists x. split; assumption.
Qed.
Lemma twist_ok lg e s : falcon_lg lg -> bytes e -> (sig_bytes lg + 2 <= length e)%nat -> length s = (2 ^ lg)%nat -> Forall (fun x => (Z.abs x <= 1023)%Z) s -> (exists c, In c s /\ (Z.abs c <= 127)%Z) ->
  (stot s + 16 < body_len lg)%Z -> body_bits lg e = encs s ++ repeat false (Z.to_nat (body_len lg - stot s)) ->
  accepts lg e s /\ accepts lg (twist lg e) s /\ bytes (twist lg e) /\ (sig_bytes lg + 2 <= length (twist lg e))%nat /\ firstn 41 (twist lg e) = firstn 41 e /\ twist lg e <> e.
Proof.
  intros Hlg Be Le Ls F Hc Ht Eb. destruct (sig_dims lg Hlg) as (D1 & D2 & D3 & D4).
  assert (A : accepts lg e s). { destruct (encs_words s F) as [W E]. split; [exact Ls|]. exists (map enc s), (Z.to_nat (body_len lg - stot s)). split; [exact W|]. split; [lia|]. rewrite E. exact Eb. }
  split; [exact A|]. destruct (P_decomp.decompress_iff lg e (repeat 0%Z (2 ^ lg)) Hlg Be Le (repeat_length _ _)) as (b & s' & E & _ & _ & A2). destruct (A2 s A) as [-> ->].
  unfold twist. rewrite E. destruct (recode_ok s F Hc) as (ws & W & EW & LW). set (n := (sig_bytes lg - 41)%nat) in *.
  set (z := (8 * n - length (recode s))%nat). assert (LZ : length (recode s ++ repeat false z) = (8 * n)%nat) by (rewrite app_length, repeat_length; lia).
  replace (repeat false (8 * n)) with (repeat false z ++ repeat false (length (recode s))) by (rewrite <- repeat_app; f_equal; lia). rewrite (app_assoc (recode s)), (pack_long n _ _ LZ).
  destruct (pack_ok n _ LZ) as (PB & PL & PE). set (p := pack n (recode s ++ repeat false z)) in *.
  assert (L41 : length (firstn 41 e) = 41%nat) by (rewrite firstn_length; lia).
  assert (BB : body_bits lg (firstn 41 e ++ p ++ skipn (sig_bytes lg) e) = recode s ++ repeat false z) by (rewrite app_assoc, (body_of lg _ p _ L41 PL); exact PE).
  split; [|split; [|split; [|split]]].
  - split; [exact Ls|]. exists ws, z. split; [exact W|]. split; [lia|]. rewrite EW. exact BB.
  - assert (X := Be). rewrite <- (firstn_skipn 41 e) in X. apply Forall_app in X. destruct X as [X _]. apply Forall_app. split; [exact X|]. apply Forall_app. split; [exact PB|].
    assert (Y := Be). rewrite <- (firstn_skipn (sig_bytes lg) e) in Y. apply Forall_app in Y. apply Y.
  - rewrite !app_length, L41, PL, skipn_length. lia.
  - rewrite firstn_app, L41, Nat.sub_diag, firstn_O, app_nil_r. apply firstn_all2. lia.
  - intros C. rewrite C, Eb in BB. symmetry in BB. revert BB. apply recode_diff. exact Hc.
Qed.
Lemma some_small lg s : falcon_lg lg -> length s = (2 ^ lg)%nat -> (stot s < body_len lg)%Z -> exists c, In c s /\ (Z.abs c <= 127)%Z.
Proof.
  intros Hlg Ls Ht. destruct (existsb (fun c => Z.abs c <=? 127)%Z s) eqn:E.
  - apply existsb_exists in E. destruct E as (c & Hc & E). exists c. split; [exact Hc|]. apply Z.leb_le. exact E.
  - exfalso. assert (G : (10 * Z.of_nat (length s) <= stot s)%Z).
    { clear Ls Ht. induction s as [|c r IH]; [cbn; lia|]. cbn [existsb] in E. apply Bool.orb_false_iff in E. destruct E as [E1 E2]. specialize (IH E2). apply Z.leb_gt in E1.
      change (stot (c :: r)) with (enc_len c + stot r)%Z. unfold enc_len. assert (1 <= Z.abs c / 128)%Z by (apply Z.div_le_lower_bound; lia). cbn [length]. lia. }
    rewrite Ls in G. assert (B : (body_len lg <= 10 * Z.of_nat (2 ^ lg))%Z) by (destruct Hlg as [-> | ->]; vm_compute; discriminate). lia.
Qed.
Definition nicev (lg : nat) (s : list Z * list Z) : bool := smallv s && (stot (snd s) <? body_len lg - 16)%Z.
Theorem sign_twist lg (Hlg : falcon_lg lg) f g F_ G_ h0 h pk0 pk : sound_key lg f g F_ G_ -> length h0 = (2 ^ lg)%nat -> compute_public_key lg f g h0 = Ok h -> length pk0 = pkey_len lg -> encode_pkey lg h pk0 = Ok pk ->
  forall skey, decode_skey lg skey (repeat 0%Z (2 ^ lg)) (repeat 0%Z (2 ^ lg)) (repeat 0%Z (2 ^ lg)) = Ok (true, (f, g, F_)) ->
  forall msg salt sig k m n mo, length salt = 40%nat -> bytes salt -> bytes sig -> (sig_bytes lg + 2 <= length sig)%nat -> (512 <= k)%nat -> (1 <= m)%nat -> (36 * k * 2 ^ lg * m <= n)%nat ->
  (if Nat.eqb lg 9 then 999 / 1000 else 9 / 10) <=
  prob (136 * k + n) (fun v => let xof := fun _ => stream (firstn (136 * k) v) in
    signs_twice (sign RF exact_table m k xof lg skey msg sig (stream (salt ++ skipn (136 * k) v))) (verify mo k xof lg pk msg) (twist lg) 41).
Proof.
  intros HS Lh HK Lpk0 HE skey HD msg salt sig k m n mo Lsa Bsa Bsg Ls Hk Hm Hn.
  apply Rle_trans with (1 - (981 / 1000) ^ (2 ^ lg) - unfit lg - (bigs lg + tight lg) - (INR (2 * 2 ^ lg) * (2 / 2 ^ 34 + (11 / 12) ^ k) + 16 ^ 2 ^ lg / 8 ^ (68 * k))).
  - assert (A := tmass_small lg Hlg). assert (B := err_small lg k Hlg Hk). assert (C := hash_err lg k Hlg Hk).
    assert (D : INR (2 * 2 ^ lg) * (2 / 2 ^ 34 + (11 / 12) ^ k) <= 2 * (INR (2 * 2 ^ lg) * (/ 2 ^ 34 + (11 / 12) ^ k))).
    { assert (0 <= INR (2 * 2 ^ lg)) by apply pos_INR. assert (0 <= (11 / 12) ^ k) by (apply pow_le; lra). assert (0 <= INR (2 * 2 ^ lg) * (11 / 12) ^ k) by (apply Rmult_le_pos; assumption).
      replace (2 * (INR (2 * 2 ^ lg) * (/ 2 ^ 34 + (11 / 12) ^ k))) with (INR (2 * 2 ^ lg) * (2 / 2 ^ 34 + (11 / 12) ^ k) + INR (2 * 2 ^ lg) * (11 / 12) ^ k) by (unfold Rdiv; ring). lra. }
    set (a := (981 / 1000) ^ (2 ^ lg)) in *. set (b := INR (2 * 2 ^ lg) * (2 / 2 ^ 34 + (11 / 12) ^ k)) in *. set (b' := INR (2 * 2 ^ lg) * (/ 2 ^ 34 + (11 / 12) ^ k)) in *. set (c := 16 ^ 2 ^ lg / 8 ^ (68 * k)) in *. clearbody a b b' c.
    destruct Hlg as [-> | ->]; unfold unfit, bigs, tight; cbn [Nat.eqb]; lra.
  - apply (sign_test lg Hlg f g F_ G_ h0 h HS Lh HK (nicev lg) (bigs lg + tight lg)) with (skey := skey) (msg := msg) (salt := salt) (sig := sig) (m := m); try assumption; [|lia|].
    + intros WT TWT L NL DL. rewrite Forall_forall in DL. rewrite (lsum_part smallv). rewrite Rmult_plus_distr_r, Rplus_comm. apply Rplus_le_compat.
      * apply (bigs_mass lg Hlg WT TWT); [apply NoDup_filter; exact NL|]. apply Forall_forall. intros s Hs. apply filter_In in Hs. destruct Hs as [Hs E]. split; [apply DL, Hs|]. unfold smallv in E. rewrite Bool.negb_involutive in E. exact E.
      * apply (tight_mass lg Hlg WT TWT); [apply NoDup_filter; exact NL|]. apply Forall_forall. intros s Hs. apply filter_In in Hs. destruct Hs as [Hs E]. split; [apply DL, Hs|]. destruct (DL s Hs) as [_ N]. unfold nicev in N. rewrite E in N. cbn [andb] in N. apply Z.ltb_ge in N. exact N.
    + intros v c e s Lv Bv Eh Es Hs Hn' Eb. cbv zeta. rewrite Es. unfold nicev in Hn'. apply Bool.andb_true_iff in Hn'. destruct Hn' as [N1 N2]. apply Z.ltb_lt in N2.
      destruct (sign_good lg Hlg f g F_ G_ h0 h pk0 pk HS Lh HK Lpk0 HE skey HD msg salt sig k m mo Lsa Bsa Bsg Ls v c e s Bv Eh Es Hs N1 Eb) as (V & Hx & Be & Le & Bpk & Lpk).
      destruct (small_in s N1) as [_ S2]. destruct Hs as ((_ & Q2 & _) & _ & Ft).
      destruct (twist_ok lg e (snd s) Hlg Be Le Q2 (proj2 (Forall_forall _ _) S2) (some_small lg (snd s) Hlg Q2 Ft) ltac:(lia) Eb) as (A1 & A2 & B2 & L2 & F41 & Df).
      unfold signs_twice. rewrite <- (P_verifyx.same_s2_verify mo k _ lg pk msg e (twist lg e) (snd s) Hlg Hx Bpk Lpk Be Le B2 L2 (eq_sym F41) A1 A2), V.
      destruct (list_eq_dec Z.eq_dec (firstn 41 (twist lg e)) (firstn 41 e)) as [_|C]; [|contradiction]. destruct (list_eq_dec Z.eq_dec (twist lg e) e) as [C|_]; [contradiction|]. reflexivity.
Qed.
Lemma twist_exists lg : falcon_lg lg -> exists change : list Z -> list Z,
  forall f g F_ G_ h0 h pk0 pk, sound_key lg f g F_ G_ -> length h0 = (2 ^ lg)%nat -> compute_public_key lg f g h0 = Ok h -> length pk0 = pkey_len lg -> encode_pkey lg h pk0 = Ok pk ->
  forall skey, decode_skey lg skey (repeat 0%Z (2 ^ lg)) (repeat 0%Z (2 ^ lg)) (repeat 0%Z (2 ^ lg)) = Ok (true, (f, g, F_)) ->
  forall msg salt sig k m n mo, length salt = 40%nat -> bytes salt -> bytes sig -> (sig_bytes lg + 2 <= length sig)%nat -> (512 <= k)%nat -> (1 <= m)%nat -> (36 * k * 2 ^ lg * m <= n)%nat ->
  (if Nat.eqb lg 9 then 999 / 1000 else 9 / 10) <=
  prob (136 * k + n) (fun v => let xof := fun _ => stream (firstn (136 * k) v) in
    signs_twice (sign RF exact_table m k xof lg skey msg sig (stream (salt ++ skipn (136 * k) v))) (verify mo k xof lg pk msg) change 41).
Proof. intros Hlg. exists (twist lg). exact (sign_twist lg Hlg). Qed.
