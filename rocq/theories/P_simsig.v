(** P_simsig.v -- hash and signature bytes together can be simulated without the secret key. *)
From Verif Require Import Base Spec SpecT SpecR SpecS SpecG SpecJ SpecH SpecM M_ff M_codec M_ntt M_sig M_verify M_float M_exact M_samp M_fft M_ntru M_tree P_codec P_keys P_sig P_comp P_sigx P_prob P_gsum P_jprob P_jgauss P_jkey P_jcoset P_kubx P_hash P_loop P_loopk P_loops P_widek P_sim P_fitm P_fits P_ver P_vers P_twist.
From Verif Require P_key P_ff P_nttx P_signv P_verifyx.
From Coq Require Import Lra.
Open Scope R_scope.

Lemma sign_form lg (Hlg : falcon_lg lg) f g F_ G_ h0 h : sound_key lg f g F_ G_ -> length h0 = (2 ^ lg)%nat -> compute_public_key lg f g h0 = Ok h ->
  forall skey, decode_skey lg skey (repeat 0%Z (2 ^ lg)) (repeat 0%Z (2 ^ lg)) (repeat 0%Z (2 ^ lg)) = Ok (true, (f, g, F_)) ->
  forall msg salt sig k m, length salt = 40%nat -> bytes salt -> bytes sig -> (sig_bytes lg + 2 <= length sig)%nat ->
  forall v e s, bytes v -> sign RF exact_table m k (fun _ => stream (firstn (136 * k) v)) lg skey msg sig (stream (salt ++ skipn (136 * k) v)) = Ok (true, e) ->
    body_bits lg e = wire lg s -> e = bytes_of lg salt sig s.
Proof.
  intros HS Lh HK skey HD msg salt sig k m Lsa Bsa Bsg Ls v e s Bv Es Eb.
  assert (Bv1 : bytes (firstn (136 * k) v)) by (apply Forall_forall; intros x Hx; unfold bytes in Bv; rewrite Forall_forall in Bv; apply Bv; rewrite <- (firstn_skipn (136 * k) v); apply in_app_iff; left; exact Hx).
  assert (Bv2 : bytes (skipn (136 * k) v)) by (apply Forall_forall; intros x Hx; unfold bytes in Bv; rewrite Forall_forall in Bv; apply Bv; rewrite <- (firstn_skipn (136 * k) v); apply in_app_iff; right; exact Hx).
  set (xof := fun _ : list Z => stream (firstn (136 * k) v)) in *.
  assert (Hx : forall a, byte_stream (xof a)) by (intros a; apply stream_bytes; exact Bv1).
  assert (Hr : byte_stream (stream (salt ++ skipn (136 * k) v))) by (apply stream_bytes, Forall_app; split; assumption).
  destruct HS as (Lf & Lg & LF & LG & HN & _ & _ & _ & BG & Sf & Sg & HI).
  assert (RG : Forall (fun x => -2147483648 <= x <= 2147483647)%Z G_). { refine (Forall_impl _ _ BG). intros x Hx0. cbv beta in Hx0. lia. }
  destruct (P_nttx.public_key_spec lg f g h0 Hlg Lf Lg Lh Sf Sg HI) as (h' & E' & Lh' & Ch & _). assert (h' = h) by congruence. subst h'.
  destruct (pk_round lg h (repeat 0%Z (pkey_len lg)) (repeat 0%Z (2 ^ lg)) Hlg Lh' ltac:(eapply Forall_impl; [|exact Ch]; intros a; apply P_ff.canon_lt14) (repeat_length _ _) (repeat_length _ _)) as (pk & HE & _).
  destruct (P_signv.sign_verifies lg Hlg f g F_ G_ Lf Lg LF LG HN xof Hx Sf Sg HI RG m k skey msg sig _ e true h0 h _ pk Bsg Ls Hr Lh (repeat_length _ _) HK HE HD Es) as [_ X]. cbv zeta in X.
  assert (ES : map (stream (salt ++ skipn (136 * k) v)) (seq 0 40) = salt) by (etransitivity; [|exact (stream_salt lg h0 Lh salt (skipn (136 * k) v) Lsa)]; apply map_ext; intros i; reflexivity). rewrite ES in X.
  destruct X as (c' & s1' & s2' & body & _ & _ & _ & _ & _ & Bb & TB & EB & Ee & _).
  assert (BL : body_len lg = (8 * Z.of_nat (sig_bytes lg - 41))%Z) by (destruct Hlg as [->| ->]; reflexivity).
  assert (Lb : length body = (sig_bytes lg - 41)%nat). { assert (Q := f_equal (@length bool) EB). rewrite app_length, repeat_length, bits_of_length in Q. assert (EL := encs_length s2'). lia. }
  assert (Be : body_bits lg e = bits_of body). { rewrite Ee. unfold body_bits. rewrite skipn_app, (skipn_all2 (_ :: salt)) by (cbn [length]; lia). cbn [length app]. rewrite Lsa. cbn [Nat.sub skipn]. rewrite firstn_app, Lb, Nat.sub_diag, firstn_O, app_nil_r, <- Lb, firstn_all. reflexivity. }
  assert (s2' = snd s). { rewrite Be, EB in Eb. exact (encs_inj _ _ _ _ Eb). } subst s2'.
  rewrite Ee. unfold bytes_of. f_equal. f_equal. destruct (pack_ok (sig_bytes lg - 41) (wire lg s)) as (PB & PL & PE).
  - rewrite app_length, repeat_length. assert (EL := encs_length (snd s)). lia.
  - apply (bits_of_inj _ _ Bb PB). rewrite PE. exact EB.
Qed.
Definition slack (lg k : nat) : R := (981 / 1000) ^ (2 ^ lg) + unfit lg + (INR (2 * 2 ^ lg) * (2 / 2 ^ 34 + (11 / 12) ^ k) + 16 ^ 2 ^ lg / 8 ^ (68 * k)).
Lemma slack_small lg k : falcon_lg lg -> (512 <= k)%nat -> slack lg k <= (if Nat.eqb lg 9 then 1 / 10000 else 13 / 1000).
Proof.
  intros Hlg Hk. assert (A := tmass_small lg Hlg). assert (B := err_small lg k Hlg Hk). assert (C := hash_err lg k Hlg Hk).
  assert (D : INR (2 * 2 ^ lg) * (2 / 2 ^ 34 + (11 / 12) ^ k) <= 2 * (INR (2 * 2 ^ lg) * (/ 2 ^ 34 + (11 / 12) ^ k))).
  { assert (0 <= INR (2 * 2 ^ lg)) by apply pos_INR. assert (0 <= (11 / 12) ^ k) by (apply pow_le; lra). assert (0 <= INR (2 * 2 ^ lg) * (11 / 12) ^ k) by (apply Rmult_le_pos; assumption).
    replace (2 * (INR (2 * 2 ^ lg) * (/ 2 ^ 34 + (11 / 12) ^ k))) with (INR (2 * 2 ^ lg) * (2 / 2 ^ 34 + (11 / 12) ^ k) + INR (2 * 2 ^ lg) * (11 / 12) ^ k) by (unfold Rdiv; ring). lra. }
  unfold slack. set (a := (981 / 1000) ^ (2 ^ lg)) in *. set (b := INR (2 * 2 ^ lg) * (2 / 2 ^ 34 + (11 / 12) ^ k)) in *. set (b' := INR (2 * 2 ^ lg) * (/ 2 ^ 34 + (11 / 12) ^ k)) in *. set (c := 16 ^ 2 ^ lg / 8 ^ (68 * k)) in *. clearbody a b b' c.
  destruct Hlg as [-> | ->]; unfold unfit; cbn [Nat.eqb]; lra.
Qed.

Section Sim.
Variables (lg : nat) (Hlg : falcon_lg lg) (h : list Z) (salt sig : list Z).
Hypotheses (Lsa : length salt = 40%nat) (Bsa : bytes salt) (Bsg : bytes sig) (Ls : (sig_bytes lg + 2 <= length sig)%nat).
Variables (WT : R) (WT0 : 0 < WT) (TWT : total (pairN lg) (fun s => wts lg s) WT).
Notation yes D b := (fun s => pairN lg s /\ D (point_of lg h s) (bytes_of lg salt sig s) = b).

Lemma sub_total (d : list Z * list Z -> Prop) : (forall s, d s -> pairN lg s) -> exists W, total d (fun s => wts lg s) W /\ 0 <= W <= WT.
Proof.
  intros H. assert (B : forall L, NoDup L -> Forall d L -> lsum (fun s => wts lg s) L <= WT).
  { intros L NL DL. apply (total_le (pairN lg)); [exact TWT|exact NL|]. eapply Forall_impl; [|exact DL]. exact H. }
  destruct (total_ex d _ _ B) as [W HW]. exists W. split; [exact HW|]. split; [|apply (total_ub _ _ _ _ HW); exact B].
  assert (X := total_le d _ _ [] HW (NoDup_nil _) (Forall_nil _)). exact X.
Qed.
Lemma part_total D WD WF : total (yes D true) (fun s => wts lg s) WD -> total (yes D false) (fun s => wts lg s) WF -> WD + WF = WT.
Proof.
  intros T1 T2. apply (total_unique (pairN lg) (fun s => wts lg s)); [|exact TWT].
  apply (total_iff (fun s => yes D true s \/ yes D false s)); [intros s; destruct (D (point_of lg h s) (bytes_of lg salt sig s)); intuition discriminate|].
  apply (total_union _ _ (fun s => D (point_of lg h s) (bytes_of lg salt sig s))); [intros s [_ E]; exact E|intros s [_ E]; exact E|exact T1|exact T2].
Qed.
Variables (f g F_ G_ h0 : list Z).
Hypotheses (HS : sound_key lg f g F_ G_) (Lh : length h0 = (2 ^ lg)%nat) (HK : compute_public_key lg f g h0 = Ok h).
Variable skey : list Z.
Hypothesis HD : decode_skey lg skey (repeat 0%Z (2 ^ lg)) (repeat 0%Z (2 ^ lg)) (repeat 0%Z (2 ^ lg)) = Ok (true, (f, g, F_)).
Variables (msg : list Z) (k m n : nat).
Hypotheses (Hm : (1 <= m)%nat) (Hn : (36 * k * 2 ^ lg * m <= n)%nat).
Notation real D v := (let xof := fun _ => stream (firstn (136 * k) v) in sees D (hash_to_point k xof lg salt msg (repeat 0%Z (2 ^ lg))) (sign RF exact_table m k xof lg skey msg sig (stream (salt ++ skipn (136 * k) v)))).

Lemma sees_below D WD : total (yes D true) (fun s => wts lg s) WD -> WD / WT - slack lg k <= prob (136 * k + n) (fun v => real D v).
Proof.
  intros TD. destruct (sub_total (yes D false) (fun s H => proj1 H)) as (WF & TF & _). assert (E := part_total D WD WF TD TF).
  replace (WD / WT - slack lg k) with (1 - (981 / 1000) ^ (2 ^ lg) - unfit lg - WF / WT - (INR (2 * 2 ^ lg) * (2 / 2 ^ 34 + (11 / 12) ^ k) + 16 ^ 2 ^ lg / 8 ^ (68 * k))).
  2:{ unfold slack. replace (WD / WT) with (1 - WF / WT) by (rewrite <- E; field; lra). ring. }
  apply (sign_test lg Hlg f g F_ G_ h0 h HS Lh HK (fun s => D (point_of lg h s) (bytes_of lg salt sig s)) (WF / WT)) with (skey := skey) (msg := msg) (salt := salt) (sig := sig) (m := m); try assumption; [|lia|].
  - intros WT' T' L NL DL. assert (WT' = WT) by exact (total_unique _ _ _ _ T' TWT). subst WT'. replace (WF / WT * WT) with WF by (field; lra). exact (total_le _ _ _ L TF NL DL).
  - intros v c e s Lv Bv Eh Es Hs Hd Eb. cbv zeta. rewrite Eh, Es. unfold sees. rewrite (sign_form lg Hlg f g F_ G_ h0 h HS Lh HK skey HD msg salt sig k m Lsa Bsa Bsg Ls v e s Bv Es Eb).
    assert (Bv1 : bytes (firstn (136 * k) v)) by (apply Forall_forall; intros x Hx; unfold bytes in Bv; rewrite Forall_forall in Bv; apply Bv; rewrite <- (firstn_skipn (136 * k) v); apply in_app_iff; left; exact Hx).
    destruct (P_verifyx.hashed_facts _ _ _ (P_verifyx.hash_hashed k (fun _ => stream (firstn (136 * k) v)) lg salt msg _ c (stream_bytes _ Bv1) (repeat_length _ _) Eh)) as [Lc Cc].
    destruct Hs as (HC & _). apply (coset_key lg c h s Lc Cc) in HC. destruct HC as [_ HC]. change (hkey lg h s) with (point_of lg h s) in HC. rewrite <- HC. exact Hd.
Qed.
Lemma sees_near D WD : total (yes D true) (fun s => wts lg s) WD -> Rabs (prob (136 * k + n) (fun v => real D v) - WD / WT) <= slack lg k.
Proof.
  intros TD. assert (A := sees_below D WD TD). destruct (sub_total (yes D false) (fun s H => proj1 H)) as (WF & TF & _). assert (E := part_total D WD WF TD TF).
  assert (TF' : total (yes (fun c e => negb (D c e)) true) (fun s => wts lg s) WF) by (apply (total_iff (yes D false)); [intros s; destruct (D (point_of lg h s) (bytes_of lg salt sig s)); cbn [negb]; intuition discriminate|exact TF]).
  assert (B := sees_below (fun c e => negb (D c e)) WF TF').
  assert (C : prob (136 * k + n) (fun v => real D v) + prob (136 * k + n) (fun v => real (fun c e => negb (D c e)) v) <= 1).
  { rewrite !prob_avg, <- avg_plus. eapply Rle_trans; [apply (avg_mono _ _ (fun _ => 1))|rewrite avg_const; apply Rle_refl]. intros v _ _. cbv zeta. unfold sees.
    destruct (hash_to_point k _ lg salt msg _) as [c| |]; [|cbn; lra|cbn; lra]. destruct (sign RF _ _ _ _ _ _ _ _ _) as [[[|] e]| |]; [|cbn; lra|cbn; lra|cbn; lra]. destruct (D c e); cbn; lra. }
  replace (WF / WT) with (1 - WD / WT) in B by (rewrite <- E; field; lra). apply Rabs_le. lra.
Qed.
End Sim.
Theorem sign_sim lg : falcon_lg lg ->
  let weight := fun s : list Z * list Z => exp (- (IZR (sqnorm (fst s) + sqnorm (snd s)) / (2 * (sigma_value RF lg * sigma_value RF lg)))) in
  exists W, 0 < W /\ total (fun s => length (fst s) = (2 ^ lg)%nat /\ length (snd s) = (2 ^ lg)%nat) weight W /\
  forall h salt sig (D : list Z -> list Z -> bool), length salt = 40%nat -> bytes salt -> bytes sig -> (sig_bytes lg + 2 <= length sig)%nat ->
  exists WD, total (fun s => (length (fst s) = (2 ^ lg)%nat /\ length (snd s) = (2 ^ lg)%nat) /\ D (point_of lg h s) (bytes_of lg salt sig s) = true) weight WD /\
  forall f g F_ G_ h0, sound_key lg f g F_ G_ -> length h0 = (2 ^ lg)%nat -> compute_public_key lg f g h0 = Ok h ->
  forall skey, decode_skey lg skey (repeat 0%Z (2 ^ lg)) (repeat 0%Z (2 ^ lg)) (repeat 0%Z (2 ^ lg)) = Ok (true, (f, g, F_)) ->
  forall msg k m n, (512 <= k)%nat -> (1 <= m)%nat -> (36 * k * 2 ^ lg * m <= n)%nat ->
  Rabs (prob (136 * k + n) (fun v => let xof := fun _ => stream (firstn (136 * k) v) in
          sees D (hash_to_point k xof lg salt msg (repeat 0%Z (2 ^ lg))) (sign RF exact_table m k xof lg skey msg sig (stream (salt ++ skipn (136 * k) v)))) - WD / W)
    <= (if Nat.eqb lg 9 then 1 / 10000 else 13 / 1000).
Proof.
  intros Hlg weight. destruct (pair_total lg Hlg) as (W & W0 & TW). exists W. split; [exact W0|]. split; [exact TW|]. intros h salt sig D Lsa Bsa Bsg Ls.
  destruct (sub_total lg W TW (fun s => (length (fst s) = (2 ^ lg)%nat /\ length (snd s) = (2 ^ lg)%nat) /\ D (point_of lg h s) (bytes_of lg salt sig s) = true) (fun s H => proj1 H)) as (WD & TD & _). exists WD. split; [exact TD|].
  intros f g F_ G_ h0 HS Lh HK skey HD msg k m n Hk Hm Hn. eapply Rle_trans; [|exact (slack_small lg k Hlg Hk)].
  exact (sees_near lg Hlg h salt sig Lsa Bsa Bsg Ls W W0 TW f g F_ G_ h0 HS Lh HK skey HD msg k m n Hm Hn D WD TD).
Qed.
