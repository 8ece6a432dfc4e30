(** P_testd.v -- the test of decompressing random bytes. *)
From Verif Require Import Base Spec M_ff M_codec M_sig P_sig P_nttx P_sigx P_decomp P_comp M_testd.
Open Scope Z_scope.

Lemma all_from n k (body : nat -> bool -> res bool) (t : nat -> bool) : (forall i s, (k <= i < k + n)%nat -> body i s = Ok (s && t i)) ->
  exists b, forn n k body true = Ok b /\ (b = true <-> forall i, (k <= i < k + n)%nat -> t i = true).
Proof.
  intros H. destruct (forn_inv (fun j b => b = true <-> forall i, (k <= i < j)%nat -> t i = true) n k body true) as (b & E & Hb).
  - split; [intros _ i Hi; lia|reflexivity].
  - intros j s Hj Hs. exists (s && t j). split; [apply H; exact Hj|]. rewrite andb_true_iff, Hs. split.
    + intros [H1 H2] i Hi. destruct (Nat.eq_dec i j) as [->|]; [exact H2|apply H1; lia].
    + intros H1. split; [intros i Hi; apply H1; lia|apply H1; lia].
  - exists b. split; [exact E|exact Hb].
Qed.

Lemma codeword_ge w c : codeword w c -> enc_len c <= Z.of_nat (length w).
Proof.
  intros H. destruct (le_gt_dec (length w) 16) as [L|L].
  - rewrite (short_enc w c) by (split; assumption). rewrite enc_length. lia.
  - assert (B := codeword_bound w c H). unfold enc_len. assert (Z.abs c / 128 < 8) by (apply Z.div_lt_upper_bound; lia). lia.
Qed.
Lemma words_ge ws s : Forall2 codeword ws s -> tot s <= Z.of_nat (length (concat ws)) /\ Forall (fun c => Z.abs c <= 1023) s.
Proof.
  induction 1 as [|w c ws s H _ [IH1 IH2]]; [split; [reflexivity|constructor]|]. split; [|constructor; [apply (codeword_bound w c H)|exact IH2]].
  cbn [concat]. rewrite app_length. change (tot (c :: s)) with (enc_len c + tot s). assert (G := codeword_ge w c H). lia.
Qed.
Lemma short_words ws s : Forall2 short_codeword ws s -> concat ws = encs s.
Proof. induction 1 as [|w c ws s H _ IH]; [reflexivity|]. cbn [concat]. change (encs (c :: s)) with (enc c ++ encs s). rewrite IH, (short_enc w c H). reflexivity. Qed.
Lemma words_short s : Forall (fun c => Z.abs c <= 1023) s -> Forall2 short_codeword (map enc s) s.
Proof. induction 1; cbn [map]; constructor; [apply enc_short; assumption|assumption]. Qed.

Lemma test_sigd_ok lg sig0 x (sig1 s2 : list Z) : falcon_lg lg -> length sig0 = sig_bytes lg -> bytes sig0 -> bytes x -> (2 <= length x)%nat -> length sig1 = sig_bytes lg -> length s2 = (2 ^ lg)%nat ->
  exists b, test_sig_decompression lg (sig0 ++ x) sig1 s2 = Ok b /\
    (b = true <-> forall s, accepts lg sig0 s -> exists ws z, Forall2 short_codeword ws s /\ body_bits lg sig0 = concat ws ++ repeat false z).
Proof.
  intros Hlg L0 B0 Bx Lx L1 L2. destruct (sig_dims lg Hlg) as (D1 & D2 & D3 & D4).
  assert (BB : body_bits lg (sig0 ++ x) = body_bits lg sig0).
  { unfold body_bits. rewrite skipn_app, firstn_app, skipn_length, L0, Nat.sub_diag, firstn_O, app_nil_r. reflexivity. }
  assert (BS : body_bits lg sig0 = bits_of (skipn 41 sig0)) by (unfold body_bits; rewrite firstn_all2 by (rewrite skipn_length; lia); reflexivity).
  assert (LB : length (body_bits lg sig0) = (8 * (sig_bytes lg - 41))%nat) by (rewrite BS, bits_of_length, skipn_length, L0; reflexivity).
  assert (Bk : bytes (skipn 41 sig0)) by (rewrite <- (firstn_skipn 41 sig0) in B0; apply Forall_app in B0; apply B0).
  destruct (decompress_iff lg (sig0 ++ x) s2 Hlg) as (d & s & E & _ & A1 & A2); [apply Forall_app; split; assumption|rewrite app_length, ?D2, L0; lia|exact L2|].
  unfold test_sig_decompression. rewrite E. cbn [bind]. destruct d.
  - specialize (A1 eq_refl). assert (A0 : accepts lg sig0 s) by (unfold accepts in *; rewrite BB in A1; exact A1). destruct A0 as (Ls & ws & z & Hw & Hz & Eb).
    destruct (words_ge ws s Hw) as [T1 T2]. assert (Tl := f_equal (@length _) Eb). rewrite LB, app_length, repeat_length in Tl.
    assert (TB : tot s < body_len lg) by lia.
    destruct (compress_ok lg s sig1 Hlg Ls ltac:(congruence)) as [C _]. destruct (C ltac:(lia)) as (body & Ec & Bb & Lbd & Hb & _). specialize (Hb TB).
    rewrite Ec. cbn [bind]. replace (tot s <? body_len lg) with true by lia. rewrite D2 in *.
    assert (L41 : length (firstn 41 sig1) = 41%nat) by (rewrite firstn_length; lia).
    destruct (all_from (sig_bytes lg - 41) 41 (fun i matches => x0 <- rd (sig0 ++ x) i ;; y <- rd (firstn 41 sig1 ++ body) i ;; Ok (matches && (x0 =? y)))
      (fun i => nth (i - 41) (skipn 41 sig0) 0 =? nth (i - 41) body 0)) as (b & El & Hl).
    { intros i m Hi. rewrite (rd_Ok _ i 0) by (rewrite app_length; lia). cbn [bind]. rewrite (rd_Ok _ i 0) by (rewrite app_length; lia). cbn [bind].
      rewrite (app_nth1 sig0 x) by lia. rewrite (app_nth2 (firstn 41 sig1)) by lia. rewrite L41.
      assert (K : nth i sig0 0 = nth (i - 41) (skipn 41 sig0) 0).
      { rewrite <- (firstn_skipn 41 sig0) at 1. assert (L4 : length (firstn 41 sig0) = 41%nat) by (rewrite firstn_length; lia). rewrite app_nth2 by lia. rewrite L4. reflexivity. }
      rewrite K. reflexivity. }
    rewrite El. cbn [bind andb]. exists b. split; [reflexivity|].
    assert (Me : b = true <-> skipn 41 sig0 = body).
    { rewrite Hl. split.
      - intros H. apply (nth_ext _ _ 0 0); [rewrite skipn_length; lia|]. rewrite skipn_length. intros i Hi. specialize (H (41 + i)%nat ltac:(lia)). replace (41 + i - 41)%nat with i in H by lia. apply Z.eqb_eq, H.
      - intros -> i _. apply Z.eqb_refl. }
    rewrite Me. split.
    + intros Eq s' A'. assert (S' : s = s'). { apply A2. unfold accepts in *. rewrite BB. exact A'. } subst s'.
      exists (map enc s), (Z.to_nat (body_len lg - tot s)). split; [apply words_short; exact T2|]. rewrite BS, Eq, Hb. f_equal. unfold encs. apply flat_map_concat_map.
    + intros H. destruct (H s) as (ws' & z' & W1 & W2); [split; [exact Ls|exists ws, z; split; [exact Hw|split; [exact Hz|exact Eb]]]|].
      rewrite (short_words _ _ W1) in W2. apply bits_of_inj; [exact Bk|exact Bb|]. rewrite <- BS, W2, Hb. f_equal. f_equal.
      assert (Tl' := f_equal (@length _) W2). rewrite LB, app_length, repeat_length in Tl'. assert (EL := encs_length s). lia.
  - exists true. split; [reflexivity|]. split; [|reflexivity]. intros _ s' A'. destruct (A2 s') as [C _]; [unfold accepts in *; rewrite BB; exact A'|discriminate].
Qed.

(** random bytes for which the test fails, and bytes for which it reads outside its buffer *)
Lemma test_sigd_fails lg (sig1 s2 x : list Z) : falcon_lg lg -> length sig1 = sig_bytes lg -> length s2 = (2 ^ lg)%nat -> bytes x -> (2 <= length x)%nat ->
  exists sig0, length sig0 = sig_bytes lg /\ bytes sig0 /\ test_sig_decompression lg (sig0 ++ x) sig1 s2 = Ok false.
Proof.
  intros Hlg L1 L2 Bx Lx. pose (r := repeat 0 (2 ^ lg - 1)).
  assert (Lr : length ([] ++ 0 :: r) = (2 ^ lg)%nat) by (destruct Hlg as [-> | ->]; reflexivity).
  destruct (malleable lg (repeat 0 41) [] 0 r Hlg (repeat_length _ _)) as (e & e' & e'' & N1 & _ & _ & FA).
  { apply Forall_rep; unfold byte; lia. } { exact Lr. } { constructor; [simpl; lia|apply Forall_rep; simpl; lia]. } { simpl; lia. } { destruct Hlg as [-> | ->]; vm_compute; reflexivity. }
  inversion FA as [|? ? (M1 & M2 & M3 & M4) FB]. subst. inversion FB as [|? ? (M1' & M2' & M3' & M4') _]. subst.
  destruct (test_sigd_ok lg e x sig1 s2 Hlg M1 M2 Bx Lx L1 L2) as (b & Eb & Hb). destruct (test_sigd_ok lg e' x sig1 s2 Hlg M1' M2' Bx Lx L1 L2) as (b' & Eb' & Hb').
  assert (Acc : forall m, length m = sig_bytes lg -> bytes m -> decompress_sig lg (m ++ x) s2 = Ok (true, [] ++ 0 :: r) -> accepts lg m ([] ++ 0 :: r)).
  { intros m Lm Bm E. destruct (decompress_iff lg (m ++ x) s2 Hlg) as (d & s & E' & _ & A1 & _); [apply Forall_app; split; assumption|destruct (sig_dims lg Hlg) as (_ & D2 & _); rewrite app_length, ?D2, Lm; lia|exact L2|].
    rewrite E in E'. injection E' as <- <-. specialize (A1 eq_refl). unfold accepts in *. unfold body_bits in *. rewrite skipn_app, firstn_app, skipn_length, Lm, Nat.sub_diag, firstn_O, app_nil_r in A1. exact A1. }
  destruct b; [|exists e; split; [exact M1|split; [exact M2|exact Eb]]]. destruct b'; [|exists e'; split; [exact M1'|split; [exact M2'|exact Eb']]].
  exfalso. destruct (proj1 Hb eq_refl _ (Acc e M1 M2 (M4 x s2 Bx Lx L2))) as (ws & z & W1 & W2). destruct (proj1 Hb' eq_refl _ (Acc e' M1' M2' (M4' x s2 Bx Lx L2))) as (ws' & z' & W1' & W2').
  apply N1. apply (short_unique lg e e' ([] ++ 0 :: r) ws ws' z z'); try assumption. congruence.
Qed.
Lemma test_sigd_oob lg (sig1 s2 : list Z) : falcon_lg lg -> length s2 = (2 ^ lg)%nat ->
  exists sig0, length sig0 = sig_bytes lg /\ bytes sig0 /\ test_sig_decompression lg sig0 sig1 s2 = UB.
Proof.
  intros Hlg Lp. set (sig := repeat 0 (sig_bytes lg)).
  assert (Bs : bytes sig) by (apply Forall_rep; unfold byte; lia). assert (Lsig : length sig = sig_bytes lg) by apply repeat_length.
  assert (F : Forall (fun c => Z.abs c <= 1023) (repeat 0 (2 ^ lg))) by (apply Forall_rep; simpl; lia).
  destruct (zero_compress lg sig Hlg Lsig Bs) as (e & E & Z8 & Zm).
  destruct (compress_true lg _ sig e Hlg (repeat_length _ _) Lsig Bs E) as (Le & Be & _).
  exists e. split; [exact Le|]. split; [exact Be|]. unfold test_sig_decompression.
  destruct (honest_oob lg _ sig e s2 Hlg (repeat_length _ _) Lsig Bs F E Lp Z8) as [U _]. rewrite (U Zm). reflexivity.
Qed.
