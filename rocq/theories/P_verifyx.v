(** P_verifyx.v -- consequences for the byte-level verify: acceptance condition, forgeries, completeness. *)
From Verif Require Import Base Ring Spec M_ff P_ff M_xform P_xform P_xring Zq P_brv M_ntt P_ntt P_nttx
  M_codec M_sig M_verify P_codec P_keys P_sig P_comp P_decomp P_sigx P_verify.
Open Scope Z_scope.
Add Ring ZQ : zq_ring.

(** ** hashing *)
Lemma accepted_prefix s n m : (n <= m)%nat -> exists t, accepted_words s m = accepted_words s n ++ t.
Proof. intros H. exists (keepw (map (word16 s) (seq n (m - n)))). rewrite <- accepted_split. f_equal. lia. Qed.

Lemma accepted_first s n m N : (N <= length (accepted_words s n))%nat -> (N <= length (accepted_words s m))%nat ->
  firstn N (accepted_words s n) = firstn N (accepted_words s m).
Proof.
  intros Hn Hm. assert (G : forall n m, (n <= m)%nat -> (N <= length (accepted_words s n))%nat -> firstn N (accepted_words s n) = firstn N (accepted_words s m)).
  { intros a b Hab Ha. destruct (accepted_prefix s a b Hab) as [t ->]. rewrite firstn_app. replace (N - length (accepted_words s a))%nat with 0%nat by lia.
    rewrite firstn_O, app_nil_r. reflexivity. }
  destruct (Nat.le_ge_cases n m); [apply G; assumption|symmetry; apply G; assumption].
Qed.

Lemma modq_firstn n l : modq (firstn n l) = firstn n (modq l).
Proof. symmetry. apply firstn_map. Qed.

Lemma hash_hashed fuel xof lg salt msg poly c : byte_stream (xof (salt ++ msg)) -> length poly = (2 ^ lg)%nat ->
  hash_to_point fuel xof lg salt msg poly = Ok c -> hashed (xof (salt ++ msg)) lg c.
Proof.
  intros Hs L H. rewrite hash_ok in H by assumption.
  destruct (Nat.leb_spec (2 ^ lg) (length (accepted_words (xof (salt ++ msg)) (68 * fuel)))) as [Le|]; [|discriminate].
  exists (68 * fuel)%nat. split; [exact Le|]. rewrite modq_firstn. congruence.
Qed.

Lemma hashed_unique s lg c c' : hashed s lg c -> hashed s lg c' -> c = c'.
Proof. intros (m & Hm & ->) (m' & Hm' & ->). f_equal. apply accepted_first; assumption. Qed.

Lemma hashed_facts s lg c : hashed s lg c -> length c = (2 ^ lg)%nat /\ Forall canon c.
Proof. intros (m & Hm & ->). split; [rewrite modq_length, firstn_length; lia|apply modq_canon]. Qed.

Lemma hashed_fuel xof lg salt msg c : byte_stream (xof (salt ++ msg)) -> hashed (xof (salt ++ msg)) lg c ->
  exists fuel0, forall fuel poly, (fuel0 <= fuel)%nat -> length poly = (2 ^ lg)%nat -> hash_to_point fuel xof lg salt msg poly = Ok c.
Proof.
  intros Hs (m & Hm & ->). exists m. intros fuel poly Hf Lp. rewrite hash_ok by assumption.
  destruct (accepted_prefix (xof (salt ++ msg)) m (68 * fuel)) as [t Et]; [lia|].
  assert (L : (2 ^ lg <= length (accepted_words (xof (salt ++ msg)) (68 * fuel)))%nat) by (rewrite Et, app_length; lia).
  rewrite (proj2 (Nat.leb_le _ _)) by exact L. f_equal. rewrite <- modq_firstn. f_equal. apply accepted_first; assumption.
Qed.

Lemma hash_point_spec xof lg salt msg : byte_stream (xof (salt ++ msg)) ->
  (forall fuel poly, length poly = (2 ^ lg)%nat ->
    (exists c, hash_to_point fuel xof lg salt msg poly = Ok c /\ hashed (xof (salt ++ msg)) lg c /\ length c = (2 ^ lg)%nat /\ Forall canon c) \/
    hash_to_point fuel xof lg salt msg poly = Fuel) /\
  (forall c, hashed (xof (salt ++ msg)) lg c -> exists fuel0, forall fuel poly, (fuel0 <= fuel)%nat -> length poly = (2 ^ lg)%nat ->
     hash_to_point fuel xof lg salt msg poly = Ok c).
Proof.
  intros Hs. split; [|intros c Hc; apply hashed_fuel; assumption].
  intros fuel poly Lp. pose proof (hash_hashed fuel xof lg salt msg poly) as H.
  pose proof (hash_ok fuel xof lg salt msg poly Hs Lp) as E.
  destruct (Nat.leb _ _); [|right; exact E]. left. eexists. split; [exact E|]. specialize (H _ Hs Lp E). split; [exact H|].
  apply (hashed_facts _ _ _ H).
Qed.

Lemma residue_words r : canon r ->
  let l := [r; r + q; r + 2 * q; r + 3 * q; r + 4 * q] in
  NoDup l /\ forall w, In w l <-> 0 <= w < 65536 /\ (w <? kq) = true /\ ff w = r.
Proof.
  intros Hr l. unfold canon, q in Hr. split.
  - unfold l, q. repeat constructor; cbn [In]; lia.
  - intros w. rewrite kq_val. split.
    + intros H. assert (E : exists k, 0 <= k <= 4 /\ w = r + k * q).
      { unfold l in H. cbn [In] in H. destruct H as [H | [H | [H | [H | [H | []]]]]].
        - exists 0; lia. - exists 1; lia. - exists 2; lia. - exists 3; lia. - exists 4; lia. }
      destruct E as (k & Hk & ->). unfold q. split; [lia|]. split; [apply Z.ltb_lt; lia|].
      rewrite ff_correct by lia. unfold q. rewrite Z_mod_plus_full. apply Z.mod_small. lia.
    + intros (Hw & Hl & Hm). apply Z.ltb_lt in Hl. rewrite ff_correct in Hm by exact Hw.
      pose proof (Z.div_mod w q qnz) as D. rewrite Hm in D. unfold q in D.
      assert (K : w / 12289 = 0 \/ w / 12289 = 1 \/ w / 12289 = 2 \/ w / 12289 = 3 \/ w / 12289 = 4) by lia.
      unfold l, q. cbn [In]. lia.
Qed.

(** a stream of equal words hashes to the constant polynomial, if the word is accepted *)
Lemma accepted_const s w m : (forall i, word16 s i = w) -> accepted_words s m = if w <? 61445 then repeat w m else [].
Proof.
  intros H. unfold accepted_words. generalize 0%nat. induction m as [|m IH]; intros k; cbn [seq map filter].
  - destruct (w <? 61445); reflexivity.
  - rewrite H, IH. destruct (w <? 61445); reflexivity.
Qed.
Lemma firstn_repeat_le {A} (x : A) n m : (n <= m)%nat -> firstn n (repeat x m) = repeat x n.
Proof. revert m. induction n as [|n IH]; intros [|m] H; cbn; try reflexivity; try lia. f_equal. apply IH. lia. Qed.
Lemma hash_one_word xof lg salt msg w r : byte_stream (xof (salt ++ msg)) -> (forall i, word16 (xof (salt ++ msg)) i = w) -> canon r ->
  (exists fuel poly, length poly = (2 ^ lg)%nat /\ hash_to_point fuel xof lg salt msg poly = Ok (repeat r (2 ^ lg))) <->
  In w [r; r + q; r + 2 * q; r + 3 * q; r + 4 * q].
Proof.
  intros Hs Hw Hr. destruct (hash_point_spec xof lg salt msg Hs) as [S1 S2].
  assert (W : 0 <= w < 65536).
  { rewrite <- (Hw 0%nat). unfold word16. pose proof (Hs (2 * 0)%nat). pose proof (Hs (2 * 0 + 1)%nat). lia. }
  assert (P : (0 < 2 ^ lg)%nat) by (apply Nat.neq_0_lt_0, Nat.pow_nonzero; lia).
  rewrite (proj2 (residue_words r Hr) w). rewrite kq_val. split.
  - intros (fuel & poly & L & E). destruct (S1 fuel poly L) as [(c & E1 & H & _)|E1]; [|rewrite E1 in E; discriminate].
    rewrite E1 in E. assert (Ec : c = repeat r (2 ^ lg)) by congruence. subst c. destruct H as (m & Hm & Hc).
    rewrite (accepted_const _ w m Hw) in Hm, Hc. destruct (w <? 61445) eqn:A; [|cbn in Hm; lia].
    split; [exact W|]. split; [reflexivity|]. rewrite repeat_length in Hm. rewrite firstn_repeat_le in Hc by exact Hm.
    rewrite ff_correct by exact W. unfold modq in Hc. destruct (2 ^ lg)%nat as [|k]; [lia|]. cbn in Hc. congruence.
  - intros (_ & A & M). assert (H : hashed (xof (salt ++ msg)) lg (repeat r (2 ^ lg))).
    { exists (2 ^ lg)%nat. rewrite (accepted_const _ w _ Hw), A, repeat_length. split; [lia|].
      rewrite firstn_repeat_le by lia. rewrite ff_correct in M by exact W. rewrite <- M. unfold modq. clear. induction (2 ^ lg)%nat as [|k IH]; [reflexivity|cbn [repeat map]; rewrite IH; reflexivity]. }
    destruct (S2 _ H) as (fuel0 & F). exists fuel0, (repeat 0 (2 ^ lg)). split; [apply repeat_length|].
    apply F; [lia|apply repeat_length].
Qed.

(** ** the byte-level function *)
Lemma beta2_ok lg : falcon_lg lg -> beta2_values lg = beta2 lg.
Proof. intros [-> | ->]; reflexivity. Qed.
Lemma pk_nonempty lg : falcon_lg lg -> (1 <= pkey_len lg)%nat.
Proof. intros [-> | ->]; unfold pkey_len; apply Nat.leb_le; vm_compute; reflexivity. Qed.

Lemma verify_ok m fuel xof lg pk msg sig : falcon_lg lg -> (forall a, byte_stream (xof a)) ->
  bytes pk -> length pk = pkey_len lg -> bytes sig -> (sig_bytes lg + 2 <= length sig)%nat ->
  (nth 0 pk 0 <> Z.of_nat lg -> verify m fuel xof lg pk msg sig = Ok false) /\
  (nth 0 sig 0 <> 48 + Z.of_nat lg -> verify m fuel xof lg pk msg sig = Ok false) /\
  ((forall s, ~ accepts lg sig s) -> verify m fuel xof lg pk msg sig = Ok false) /\
  (forall h s2, decode_pkey lg pk (repeat 0 (2 ^ lg)) = Ok (true, h) -> nth 0 sig 0 = 48 + Z.of_nat lg -> accepts lg sig s2 ->
    verify m fuel xof lg pk msg sig =
    (c <- hash_to_point fuel xof lg (firstn 40 (skipn 1 sig)) msg (repeat 0 (2 ^ lg)%nat) ;;
     match m with
     | Strict => if vnorm lg c s2 h <? 2147483648 then Ok (vnorm lg c s2 h <=? beta2 lg) else UB
     | Wrap => Ok (i32 (vnorm lg c s2 h) <=? beta2 lg)
     end)).
Proof.
  intros Hlg Hx Bp Lp Bs Ls. unfold verify. rewrite beta2_ok by exact Hlg.
  destruct (pk_back lg pk (repeat 0 (2 ^ lg)%nat) (repeat 0 (pkey_len lg)) Hlg Lp Bp (repeat_length _ _) (repeat_length _ _)) as [P1 P2].
  destruct (Z.eq_dec (nth 0 pk 0) (Z.of_nat lg)) as [E0|N0].
  - destruct (P2 E0) as (h & Eh & Lh & Hh & _). rewrite Eh. cbn [bind negb].
    destruct (verify_h_ok m fuel xof lg (beta2 lg) h msg sig Hlg Hx Bs Ls Lh Hh) as (V1 & V2 & V3).
    split; [contradiction|]. split; [exact V1|]. split; [exact V2|]. intros h' s2 Eh' H0 A.
    assert (h' = h) by congruence. subst h'. apply V3; assumption.
  - rewrite (P1 N0). cbn [bind negb]. repeat split; try reflexivity. intros h s2 H. discriminate.
Qed.

(** acceptance with trapping overflow *)
Lemma verify_true_iff xof lg pk msg sig : falcon_lg lg -> (forall a, byte_stream (xof a)) ->
  bytes pk -> length pk = pkey_len lg -> bytes sig -> (sig_bytes lg + 2 <= length sig)%nat ->
  ((exists fuel, verify Strict fuel xof lg pk msg sig = Ok true) <->
   exists h s2 c, decode_pkey lg pk (repeat 0 (2 ^ lg)) = Ok (true, h) /\ nth 0 sig 0 = 48 + Z.of_nat lg /\ accepts lg sig s2 /\
     hashed (xof (firstn 40 (skipn 1 sig) ++ msg)) lg c /\ vnorm lg c s2 h <= beta2 lg).
Proof.
  intros Hlg Hx Bp Lp Bs Ls.
  assert (B2 : beta2 lg < 2147483648) by (destruct Hlg as [-> | ->]; vm_compute; reflexivity).
  split.
  - intros [fuel H]. destruct (verify_ok Strict fuel xof lg pk msg sig Hlg Hx Bp Lp Bs Ls) as (V1 & V2 & V3 & V4).
    destruct (Z.eq_dec (nth 0 pk 0) (Z.of_nat lg)) as [E0|N0]; [|rewrite V1 in H by exact N0; discriminate].
    destruct (pk_back lg pk (repeat 0 (2 ^ lg)%nat) (repeat 0 (pkey_len lg)) Hlg Lp Bp (repeat_length _ _) (repeat_length _ _)) as [_ P2].
    destruct (P2 E0) as (h & Eh & _). destruct (Z.eq_dec (nth 0 sig 0) (48 + Z.of_nat lg)) as [E1|N1]; [|rewrite V2 in H by exact N1; discriminate].
    destruct (decompress_iff lg sig (repeat 0 (2 ^ lg)%nat) Hlg Bs Ls (repeat_length _ _)) as (b & s & _ & _ & A1 & A2).
    destruct b.
    + specialize (A1 eq_refl). rewrite (V4 h s Eh E1 A1) in H.
      destruct (hash_to_point _ _ _ _ _ _) as [c| |] eqn:EH; cbn [bind] in H; [|discriminate|discriminate].
      destruct (Z.ltb_spec (vnorm lg c s h) 2147483648); [|discriminate].
      exists h, s, c. split; [exact Eh|]. split; [exact E1|]. split; [exact A1|]. split; [eapply hash_hashed; [apply Hx| |exact EH]; apply repeat_length|].
      apply Z.leb_le. congruence.
    + rewrite V3 in H; [discriminate|]. intros s' A'. destruct (A2 s' A'). discriminate.
  - intros (h & s2 & c & Eh & E1 & A & Hc & N).
    destruct (hashed_fuel xof lg (firstn 40 (skipn 1 sig)) msg c (Hx _) Hc) as (f0 & HF). exists f0.
    destruct (verify_ok Strict f0 xof lg pk msg sig Hlg Hx Bp Lp Bs Ls) as (_ & _ & _ & V4).
    rewrite (V4 h s2 Eh E1 A), HF by (try apply repeat_length; lia). cbn [bind].
    rewrite (proj2 (Z.ltb_lt _ _)), (proj2 (Z.leb_le _ _)) by lia. reflexivity.
Qed.

(** ** s1 depends on h modulo q only *)
Lemma s1_residues_modq lg c s2 h h' : length h = (2 ^ lg)%nat -> length h' = (2 ^ lg)%nat -> modq h = modq h' ->
  s1_residues lg c s2 h = s1_residues lg c s2 h'.
Proof.
  intros L L' H. unfold s1_residues. apply tab_ext. intros i Hi. apply toq_eq. rewrite !toq_sub. f_equal.
  rewrite !toq_negacyclic by exact Hi. apply rsum_ext. intros j Hj. f_equal.
  assert (G : forall k, toq (nth k h 0) = toq (nth k h' 0)).
  { intros k. apply toq_eq. rewrite <- !modq_nth. rewrite H. reflexivity. }
  unfold sh. destruct (Nat.leb j i); [apply G|f_equal; apply G].
Qed.

Lemma sqnorm_0 n : sqnorm (repeat 0 n) = 0.
Proof. unfold sqnorm. induction n as [|n IH]; simpl; [reflexivity|exact IH]. Qed.

Lemma nth_rep0 k n : nth k (repeat 0 n) 0 = 0.
Proof. destruct (Nat.lt_ge_cases k n); [apply nth_repeat|apply nth_overflow; rewrite repeat_length; assumption]. Qed.

Lemma s1_zero lg c h : length c = (2 ^ lg)%nat -> Forall canon c -> s1_residues lg c (repeat 0 (2 ^ lg)) h = c.
Proof.
  intros L C. apply (list_ext 0); unfold s1_residues; [rewrite tab_length; symmetry; exact L|]. rewrite tab_length. intros i Hi.
  rewrite nth_tab by exact Hi. unfold negacyclic. rewrite nth_tab by exact Hi.
  assert (Z0 : forall n f, (forall j, (j < n)%nat -> f j = 0) -> zsum n f = 0).
  { induction n as [|n IH]; intros f Hf; [reflexivity|]. cbn [zsum]. rewrite IH, Hf by (intros; try apply Hf; lia). reflexivity. }
  rewrite Z0, Z.sub_0_r; [apply Z.mod_small, (canon_forall_nth c _ L C i Hi)|]. intros j Hj. rewrite nth_rep0. reflexivity.
Qed.

Lemma vnorm_zero lg c h : length c = (2 ^ lg)%nat -> Forall canon c -> vnorm lg c (repeat 0 (2 ^ lg)) h = sqnorm (map lift c).
Proof. intros L C. unfold vnorm. rewrite sqnorm_0, s1_zero by assumption. reflexivity. Qed.

(** a signature with s2 = 0 *)
Lemma zero_sig lg salt : falcon_lg lg -> length salt = 40%nat -> bytes salt ->
  exists e, length e = sig_bytes lg /\ bytes e /\ nth 0 e 0 = 48 + Z.of_nat lg /\ firstn 40 (skipn 1 e) = salt /\
   forall x, accepts lg (e ++ x) (repeat 0 (2 ^ lg)) /\ firstn 40 (skipn 1 (e ++ x)) = salt /\ nth 0 (e ++ x) 0 = 48 + Z.of_nat lg.
Proof.
  intros Hlg Ls Bs. destruct (sig_dims lg Hlg) as (D1 & D2 & D3 & D4).
  set (sig := (48 + Z.of_nat lg) :: salt ++ repeat 0 (sig_bytes lg - 41)).
  assert (L : length sig = sig_bytes lg) by (unfold sig; cbn [length]; rewrite app_length, repeat_length; lia).
  assert (B : bytes sig).
  { unfold sig. apply Forall_cons; [destruct Hlg as [-> | ->]; vm_compute; split; congruence|]. apply Forall_app. split; [exact Bs|apply Forall_rep; unfold byte; lia]. }
  destruct (zero_compress lg sig Hlg L B) as (e & E & _).
  destruct (compress_true lg _ sig e Hlg (repeat_length _ _) L B E) as (Le & Be & F41 & T & BB).
  assert (P : firstn 41 e = (48 + Z.of_nat lg) :: salt).
  { rewrite F41. unfold sig. change ((48 + Z.of_nat lg) :: salt ++ repeat 0 (sig_bytes lg - 41)) with (((48 + Z.of_nat lg) :: salt) ++ repeat 0 (sig_bytes lg - 41)).
    apply firstn_lead. cbn [length]. lia. }
  assert (EE : exists t, e = (48 + Z.of_nat lg) :: salt ++ t) by (exists (skipn 41 e); rewrite <- (firstn_skipn 41 e) at 1; rewrite P; reflexivity).
  destruct EE as [t ->]. exists ((48 + Z.of_nat lg) :: salt ++ t). split; [exact Le|]. split; [exact Be|]. split; [reflexivity|].
  assert (S40 : forall y, firstn 40 (skipn 1 ((48 + Z.of_nat lg) :: salt ++ y)) = salt) by (intros y; cbn [skipn]; apply firstn_lead; exact Ls).
  split; [apply S40|]. intros x. split; [|split; [cbn [app]; rewrite <- app_assoc; apply S40|reflexivity]].
  assert (F : Forall (fun c => Z.abs c <= 1023) (repeat 0 (2 ^ lg))) by (apply Forall_rep; simpl; lia).
  destruct (encs_words _ F) as [W C]. split; [apply repeat_length|]. exists (map enc (repeat 0 (2 ^ lg))), (Z.to_nat (body_len lg - tot (repeat 0 (2 ^ lg)))).
  split; [exact W|]. split; [lia|]. rewrite C. apply BB.
Qed.

(** ** constant XOFs *)
Lemma map_repeat {A B} (f : A -> B) x n : map f (repeat x n) = repeat (f x) n.
Proof. induction n; simpl; congruence. Qed.
Definition const_xof (w : Z) : list Z -> nat -> Z := fun _ i => if Nat.even i then w / 256 else w mod 256.
Lemma const_xof_ok w a : 0 <= w < 65536 -> byte_stream (const_xof w a).
Proof. intros Hw i. unfold const_xof. destruct (Nat.even i); lia. Qed.
Lemma const_words w a m : 0 <= w < 61445 -> accepted_words (const_xof w a) m = repeat w m.
Proof.
  intros Hw. unfold accepted_words. assert (E : map (word16 (const_xof w a)) (seq 0 m) = repeat w m).
  { generalize 0%nat. induction m as [|m IH]; intros k; [reflexivity|]. cbn [seq map repeat]. rewrite IH. f_equal.
    unfold word16, const_xof. replace (Nat.even (2 * k)) with true by (symmetry; apply Nat.even_spec; exists k; lia).
    replace (Nat.even (2 * k + 1)) with false; [pose proof (Z.div_mod w 256); lia|]. symmetry. rewrite Nat.add_1_r, Nat.even_succ, <- Nat.negb_even.
    replace (Nat.even (2 * k)) with true; [reflexivity|]. symmetry; apply Nat.even_spec; exists k; lia. }
  rewrite E. clear E. induction m as [|m IH]; [reflexivity|]. cbn [repeat filter]. rewrite (proj2 (Z.ltb_lt _ _)) by lia. f_equal. exact IH.
Qed.
Lemma const_hashed w a lg : 0 <= w < 12289 -> hashed (const_xof w a) lg (repeat w (2 ^ lg)).
Proof.
  intros Hw. exists (2 ^ lg)%nat. rewrite const_words by lia. rewrite repeat_length. split; [lia|]. rewrite firstn_all2 by (rewrite repeat_length; lia).
  unfold modq. rewrite map_repeat. f_equal. symmetry. apply Z.mod_small. unfold q. lia.
Qed.
Lemma sqnorm_rep x n : sqnorm (repeat x n) = Z.of_nat n * (x * x).
Proof. induction n as [|n IH]; [reflexivity|]. cbn [repeat]. rewrite sqnorm_cons, IH. lia. Qed.

(** every key accepts the same signature on every message *)
Lemma universal_forgery lg salt x : falcon_lg lg -> length salt = 40%nat -> bytes salt -> bytes x -> (2 <= length x)%nat ->
  exists xof sig fuel, (forall a, byte_stream (xof a)) /\ length sig = sig_bytes lg /\ bytes sig /\ firstn 40 (skipn 1 sig) = salt /\
   forall pk msg, bytes pk -> length pk = pkey_len lg -> nth 0 pk 0 = Z.of_nat lg ->
     verify Wrap fuel xof lg pk msg (sig ++ x) = Ok true /\ verify Strict fuel xof lg pk msg (sig ++ x) = UB /\
     forall h c, decode_pkey lg pk (repeat 0 (2 ^ lg)) = Ok (true, h) -> hashed (xof (salt ++ msg)) lg c ->
       accepts lg (sig ++ x) (repeat 0 (2 ^ lg)) /\ vnorm lg c (repeat 0 (2 ^ lg)) h >= 2147483648 /\ beta2 lg < 2147483648.
Proof.
  intros Hlg Ls Bs Bx Lx. destruct (zero_sig lg salt Hlg Ls Bs) as (e & Le & Be & E0 & Es & H).
  destruct (H x) as (A & Sx & Hx0).
  set (w := if Nat.eqb lg 9 then 2048 else 1500).
  assert (W : 0 <= w < 6144 /\ 2147483648 <= Z.of_nat (2 ^ lg) * (w * w) < 2 ^ 32 - 1 /\ i32 (Z.of_nat (2 ^ lg) * (w * w)) <= beta2 lg).
  { unfold w. destruct Hlg as [-> | ->]; vm_compute; repeat split; congruence. }
  destruct W as (W1 & W2 & W3).
  assert (Hc : forall a, hashed (const_xof w a) lg (repeat w (2 ^ lg))) by (intros a; apply const_hashed; lia).
  exists (const_xof w), e, (2 ^ lg)%nat. split; [intros a; apply const_xof_ok; lia|]. split; [exact Le|]. split; [exact Be|]. split; [exact Es|].
  intros pk msg Bp Lp P0.
  assert (VN : forall h, vnorm lg (repeat w (2 ^ lg)) (repeat 0 (2 ^ lg)) h = Z.of_nat (2 ^ lg) * (w * w)).
  { intros h. rewrite vnorm_zero; [|apply repeat_length|apply Forall_rep; unfold canon, q; lia]. rewrite map_repeat, sqnorm_rep.
    replace (lift w) with w; [reflexivity|]. unfold lift. rewrite (proj2 (Z.ltb_lt _ _)) by lia. reflexivity. }
  assert (HH : hash_to_point (2 ^ lg) (const_xof w) lg (firstn 40 (skipn 1 (e ++ x))) msg (repeat 0 (2 ^ lg)%nat) = Ok (repeat w (2 ^ lg))).
  { rewrite hash_ok by (try apply repeat_length; apply const_xof_ok; lia). rewrite const_words, repeat_length by lia.
    rewrite (proj2 (Nat.leb_le _ _)) by lia. f_equal. rewrite <- modq_firstn. rewrite firstn_repeat, Nat.min_l by lia. unfold modq. rewrite map_repeat. f_equal.
    apply Z.mod_small. unfold q. lia. }
  destruct (pk_back lg pk (repeat 0 (2 ^ lg)%nat) (repeat 0 (pkey_len lg)) Hlg Lp Bp (repeat_length _ _) (repeat_length _ _)) as [_ P2].
  destruct (P2 P0) as (h & Eh & _).
  assert (Bex : bytes (e ++ x)) by (apply Forall_app; split; assumption).
  assert (Lex : (sig_bytes lg + 2 <= length (e ++ x))%nat) by (rewrite app_length; lia).
  assert (V : forall m, _) by (intros m; exact (proj2 (proj2 (proj2 (verify_ok m (2 ^ lg) (const_xof w) lg pk msg (e ++ x) Hlg ltac:(intros; apply const_xof_ok; lia) Bp Lp Bex Lex))) h _ Eh Hx0 A)).
  rewrite (V Wrap), (V Strict), HH. cbn [bind]. rewrite VN.
  split; [f_equal; apply Z.leb_le; exact W3|]. split; [rewrite (proj2 (Z.ltb_ge _ _)) by lia; reflexivity|].
  intros h' c Eh' Hc'. pose proof (hashed_unique _ _ _ _ Hc' (Hc _)) as ->. rewrite VN. split; [exact A|]. split; [lia|].
  destruct Hlg as [-> | ->]; vm_compute; reflexivity.
Qed.

(** ** key independence when s2 = 0 *)
Lemma zero_s2_any_key m fuel xof lg pk pk' msg sig : falcon_lg lg -> (forall a, byte_stream (xof a)) ->
  bytes pk -> length pk = pkey_len lg -> nth 0 pk 0 = Z.of_nat lg -> bytes pk' -> length pk' = pkey_len lg -> nth 0 pk' 0 = Z.of_nat lg ->
  bytes sig -> (sig_bytes lg + 2 <= length sig)%nat -> accepts lg sig (repeat 0 (2 ^ lg)) ->
  verify m fuel xof lg pk msg sig = verify m fuel xof lg pk' msg sig.
Proof.
  intros Hlg Hx Bp Lp P0 Bp' Lp' P0' Bs Ls A.
  destruct (pk_back lg pk (repeat 0 (2 ^ lg)%nat) (repeat 0 (pkey_len lg)) Hlg Lp Bp (repeat_length _ _) (repeat_length _ _)) as [_ P2].
  destruct (pk_back lg pk' (repeat 0 (2 ^ lg)%nat) (repeat 0 (pkey_len lg)) Hlg Lp' Bp' (repeat_length _ _) (repeat_length _ _)) as [_ P2'].
  destruct (P2 P0) as (h & Eh & _). destruct (P2' P0') as (h' & Eh' & _).
  destruct (verify_ok m fuel xof lg pk msg sig Hlg Hx Bp Lp Bs Ls) as (_ & V2 & _ & V4).
  destruct (verify_ok m fuel xof lg pk' msg sig Hlg Hx Bp' Lp' Bs Ls) as (_ & V2' & _ & V4').
  destruct (Z.eq_dec (nth 0 sig 0) (48 + Z.of_nat lg)) as [E1|N1]; [|rewrite V2, V2' by exact N1; reflexivity].
  rewrite (V4 h _ Eh E1 A), (V4' h' _ Eh' E1 A).
  destruct (hash_to_point _ _ _ _ _ _) as [c| |] eqn:EH; cbn [bind]; [|reflexivity|reflexivity].
  destruct (hash_result _ _ _ _ _ _ _ (Hx _) (repeat_length _ _) EH) as [Lc Cc].
  rewrite !vnorm_zero by assumption. reflexivity.
Qed.

(** keys equal mod q are interchangeable *)
Lemma alias_verify m fuel xof lg pk pk' h h' msg sig : falcon_lg lg -> (forall a, byte_stream (xof a)) ->
  bytes pk -> length pk = pkey_len lg -> bytes pk' -> length pk' = pkey_len lg ->
  decode_pkey lg pk (repeat 0 (2 ^ lg)) = Ok (true, h) -> decode_pkey lg pk' (repeat 0 (2 ^ lg)) = Ok (true, h') -> modq h = modq h' ->
  bytes sig -> (sig_bytes lg + 2 <= length sig)%nat ->
  verify m fuel xof lg pk msg sig = verify m fuel xof lg pk' msg sig.
Proof.
  intros Hlg Hx Bp Lp Bp' Lp' Eh Eh' HM Bs Ls.
  assert (Lh : forall p k, length p = pkey_len lg -> bytes p -> decode_pkey lg p (repeat 0 (2 ^ lg)) = Ok (true, k) -> length k = (2 ^ lg)%nat).
  { intros p k L1 B1 E1. destruct (pk_back lg p (repeat 0 (2 ^ lg)%nat) (repeat 0 (pkey_len lg)) Hlg L1 B1 (repeat_length _ _) (repeat_length _ _)) as [Q1 Q2].
    destruct (Z.eq_dec (nth 0 p 0) (Z.of_nat lg)) as [Y|N]; [|rewrite Q1 in E1 by exact N; discriminate].
    destruct (Q2 Y) as (k' & E2 & L2 & _). congruence. }
  destruct (verify_ok m fuel xof lg pk msg sig Hlg Hx Bp Lp Bs Ls) as (_ & V2 & V3 & V4).
  destruct (verify_ok m fuel xof lg pk' msg sig Hlg Hx Bp' Lp' Bs Ls) as (_ & V2' & V3' & V4').
  destruct (Z.eq_dec (nth 0 sig 0) (48 + Z.of_nat lg)) as [E1|N1]; [|rewrite V2, V2' by exact N1; reflexivity].
  destruct (decompress_iff lg sig (repeat 0 (2 ^ lg)%nat) Hlg Bs Ls (repeat_length _ _)) as (b & s & _ & _ & A1 & A2).
  destruct b.
  - specialize (A1 eq_refl). rewrite (V4 h s Eh E1 A1), (V4' h' s Eh' E1 A1). unfold vnorm.
    destruct (hash_to_point _ _ _ _ _ _) as [c| |]; cbn [bind]; [|reflexivity|reflexivity].
    rewrite (s1_residues_modq lg c s h h' (Lh pk h Lp Bp Eh) (Lh pk' h' Lp' Bp' Eh') HM). reflexivity.
  - assert (NA : forall s', ~ accepts lg sig s') by (intros s' A'; destruct (A2 s' A'); discriminate). rewrite V3, V3' by exact NA. reflexivity.
Qed.

(** same salt, header and vector: same verdict *)
Lemma same_s2_verify m fuel xof lg pk msg sig sig' s2 : falcon_lg lg -> (forall a, byte_stream (xof a)) ->
  bytes pk -> length pk = pkey_len lg -> bytes sig -> (sig_bytes lg + 2 <= length sig)%nat -> bytes sig' -> (sig_bytes lg + 2 <= length sig')%nat ->
  firstn 41 sig = firstn 41 sig' -> accepts lg sig s2 -> accepts lg sig' s2 ->
  verify m fuel xof lg pk msg sig = verify m fuel xof lg pk msg sig'.
Proof.
  intros Hlg Hx Bp Lp Bs Ls Bs' Ls' E41 A A'.
  assert (E0 : nth 0 sig 0 = nth 0 sig' 0).
  { rewrite <- (firstn_skipn 41 sig), <- (firstn_skipn 41 sig'), E41. destruct sig'; [simpl in Ls'; destruct Hlg as [-> | ->]; simpl in Ls'; lia|reflexivity]. }
  assert (ES : firstn 40 (skipn 1 sig) = firstn 40 (skipn 1 sig')).
  { rewrite !firstn_skipn_comm. change (1 + 40)%nat with 41%nat. rewrite E41. reflexivity. }
  destruct (verify_ok m fuel xof lg pk msg sig Hlg Hx Bp Lp Bs Ls) as (V1 & V2 & V3 & V4).
  destruct (verify_ok m fuel xof lg pk msg sig' Hlg Hx Bp Lp Bs' Ls') as (V1' & V2' & V3' & V4').
  destruct (Z.eq_dec (nth 0 sig 0) (48 + Z.of_nat lg)) as [E1|N1].
  2: { rewrite V2, V2' by congruence. reflexivity. }
  destruct (Z.eq_dec (nth 0 pk 0) (Z.of_nat lg)) as [P0|N0]; [|rewrite V1, V1' by exact N0; reflexivity].
  destruct (pk_back lg pk (repeat 0 (2 ^ lg)%nat) (repeat 0 (pkey_len lg)) Hlg Lp Bp (repeat_length _ _) (repeat_length _ _)) as [_ P2].
  destruct (P2 P0) as (h & Eh & _). rewrite (V4 h s2 Eh E1 A), (V4' h s2 Eh) by congruence. rewrite ES. reflexivity.
Qed.

(** ** centred lift *)
Lemma lift0_least v k : canon v -> Z.abs (lift0 v) <= Z.abs (v + k * q).
Proof. unfold canon, lift0, q. intros H. destruct (Z.leb_spec v 6144); lia. Qed.
Lemma lift_lift0 v : canon v -> v <> 6144 -> lift v = lift0 v.
Proof. unfold canon, lift, lift0, q. intros H N. destruct (Z.ltb_spec v 6144), (Z.leb_spec v 6144); lia. Qed.

Lemma sqnorm_in x l : In x l -> x * x <= sqnorm l.
Proof.
  induction l as [|y l IH]; [intros []|]. intros [-> | H]; rewrite sqnorm_cons.
  - pose proof (sqnorm_nonneg l). lia.
  - specialize (IH H). pose proof (Z.square_nonneg y). lia.
Qed.

Lemma s1_canon lg c s2 h : Forall canon (s1_residues lg c s2 h).
Proof. apply Forall_nth_intro with (d := 0). unfold s1_residues. rewrite tab_length. intros i Hi. rewrite nth_tab by exact Hi. apply mod_canon. Qed.

Lemma lift_eq_unless r : Forall canon r -> ~ In 6144 r -> map lift r = map lift0 r.
Proof. intros C N. apply map_ext_in. intros x Hx. apply lift_lift0; [rewrite Forall_forall in C; apply C, Hx|]. intros ->. contradiction. Qed.

Lemma lift_512 c s2 h : (vnorm 9 c s2 h <= beta2 9 <-> vnorm0 9 c s2 h <= beta2 9).
Proof.
  unfold vnorm, vnorm0. set (r := s1_residues 9 c s2 h). pose proof (s1_canon 9 c s2 h) as C. fold r in C.
  destruct (in_dec Z.eq_dec 6144 r) as [I|N]; [|rewrite lift_eq_unless by assumption; reflexivity].
  pose proof (sqnorm_nonneg s2) as N2. pose proof (sqnorm_in _ _ (in_map lift _ _ I)) as S1. pose proof (sqnorm_in _ _ (in_map lift0 _ _ I)) as S2.
  change (lift 6144) with (-6145) in S1. change (lift0 6144) with 6144 in S2. change (beta2 9) with 34034726. lia.
Qed.

Definition edge_c : list Z := [6144; 5702; 60; 10; 1; 1] ++ repeat 0 1018.
Lemma edge_norms h : vnorm0 10 edge_c (repeat 0 (2 ^ 10)) h = beta2 10 /\ vnorm 10 edge_c (repeat 0 (2 ^ 10)) h > beta2 10.
Proof.
  assert (L : length edge_c = (2 ^ 10)%nat) by (vm_compute; reflexivity).
  assert (C : Forall canon edge_c).
  { unfold edge_c. apply Forall_app. split; [|apply Forall_rep; unfold canon, q; lia]. repeat (apply Forall_cons; [unfold canon, q; lia|]). apply Forall_nil. }
  rewrite vnorm_zero by assumption. unfold vnorm0. rewrite s1_zero, sqnorm_0 by assumption.
  split; vm_compute; reflexivity.
Qed.

(** ** completeness *)
Lemma ev_add lg a b p : ev lg (padd (2 ^ lg) a b) p = qadd (ev lg a p) (ev lg b p).
Proof.
  unfold ev, reval. rewrite <- (rsum_add _ _ _ _ _ _ _ zq_ring). apply rsum_ext. intros i Hi. unfold padd. rewrite nth_tab by exact Hi. rewrite toq_add. ring.
Qed.
Lemma ev_psub lg a b p : ev lg (psub (2 ^ lg) a b) p = qsub (ev lg a p) (ev lg b p).
Proof.
  unfold ev, reval. rewrite <- (rsum_sub _ _ _ _ _ _ _ zq_ring). apply rsum_ext. intros i Hi. unfold psub. rewrite nth_tab by exact Hi. rewrite toq_sub. ring.
Qed.
Lemma ev_zero lg a p : (forall i, (i < 2 ^ lg)%nat -> toq (nth i a 0) = q0) -> ev lg a p = q0.
Proof. intros H. unfold ev, reval. apply (rsum_zero _ _ _ _ _ _ _ zq_ring). intros i Hi. rewrite H by exact Hi. ring. Qed.

Lemma q_cancel x a b : x <> q0 -> qmul x a = qmul x b -> a = b.
Proof. intros N H. destruct (q_inverse x N) as [y Y]. transitivity (qmul (qmul x y) a); [rewrite Y; ring|]. transitivity (qmul y (qmul x a)); [ring|]. rewrite H. transitivity (qmul (qmul x y) b); [ring|rewrite Y; ring]. Qed.

(** s1 = c - z0 g - z1 G is c - s2 h modulo q for s2 = z0 f + z1 F *)
Lemma sign_equation lg f g F G h z0 z1 c : falcon_lg lg ->
  length f = (2 ^ lg)%nat -> length g = (2 ^ lg)%nat -> length F = (2 ^ lg)%nat -> length G = (2 ^ lg)%nat -> length h = (2 ^ lg)%nat ->
  ntru (2 ^ lg) f g F G -> (exists fi, length fi = (2 ^ lg)%nat /\ modq (negacyclic (2 ^ lg) f fi) = onep (2 ^ lg)) ->
  modq (negacyclic (2 ^ lg) h f) = modq g ->
  let N := (2 ^ lg)%nat in
  let s2 := padd N (negacyclic N z0 f) (negacyclic N z1 F) in
  let s1 := psub N (psub N c (negacyclic N z0 g)) (negacyclic N z1 G) in
  s1_residues lg c s2 h = modq s1.
Proof.
  intros Hlg Lf Lg LF LG Lh HN HI HP N s2 s1.
  assert (HM : modq (psub N c (negacyclic N s2 h)) = modq s1).
  { apply (ev_inj lg); [exact Hlg|apply tab_length|apply tab_length|]. intros p Hp.
    unfold s1, s2, N. rewrite !ev_psub, !ev_mul, !ev_add, !ev_mul by exact Hlg.
    assert (NZ : ev lg f p <> q0) by (apply (proj2 (invertible_iff lg f Hlg Lf) HI p Hp)).
    assert (E1 : qmul (ev lg h p) (ev lg f p) = ev lg g p).
    { rewrite <- ev_mul by exact Hlg. rewrite <- ev_modq, HP, ev_modq. reflexivity. }
    assert (E2 : qmul (ev lg f p) (ev lg G p) = qmul (ev lg g p) (ev lg F p)).
    { rewrite <- !ev_mul by exact Hlg. assert (D : qsub (ev lg (negacyclic (2 ^ lg) f G) p) (ev lg (negacyclic (2 ^ lg) g F) p) = q0).
      { rewrite <- ev_psub. apply ev_zero. intros i Hi. unfold psub. rewrite nth_tab by exact Hi. rewrite HN by exact Hi.
        destruct (Nat.eqb i 0); [apply toq_eq; reflexivity|reflexivity]. }
      transitivity (qadd (qsub (ev lg (negacyclic (2 ^ lg) f G) p) (ev lg (negacyclic (2 ^ lg) g F) p)) (ev lg (negacyclic (2 ^ lg) g F) p)); [ring|]. rewrite D. ring. }
    assert (E3 : qmul (ev lg F p) (ev lg h p) = ev lg G p).
    { apply (q_cancel (ev lg f p)); [exact NZ|]. rewrite E2, <- E1. ring. }
    rewrite <- E1, <- E3. ring. }
  rewrite <- HM. unfold s1_residues. fold N. apply (list_ext 0); [rewrite modq_length; unfold psub; rewrite !tab_length; reflexivity|].
  rewrite tab_length. intros i Hi. rewrite modq_nth. unfold psub. rewrite !nth_tab by exact Hi. reflexivity.
Qed.

Lemma sqnorm_map_le (f g : Z -> Z) l : (forall x, In x l -> Z.abs (f x) <= Z.abs (g x)) -> sqnorm (map f l) <= sqnorm (map g l).
Proof.
  induction l as [|x l IH]; intros H; [apply Z.le_refl|]. cbn [map]. rewrite !sqnorm_cons.
  assert (IH' : sqnorm (map f l) <= sqnorm (map g l)) by (apply IH; intros y Hy; apply H; right; exact Hy).
  specialize (H x (or_introl eq_refl)). pose proof (Z.abs_square (f x)). pose proof (Z.abs_square (g x)). nia.
Qed.

Lemma lift_mod_le x : x <> 6144 -> Z.abs (lift (x mod q)) <= Z.abs x.
Proof.
  intros N. unfold lift. pose proof (Z.div_mod x q qnz) as D. pose proof (mod_canon x) as C. unfold canon in C. unfold q in *.
  destruct (Z.ltb_spec (x mod 12289) 6144); [nia|]. assert (x / 12289 <= -1 \/ x / 12289 = 0 \/ 1 <= x / 12289) by lia. nia.
Qed.

Lemma honest_norm lg f g F G h z0 z1 c : falcon_lg lg ->
  length f = (2 ^ lg)%nat -> length g = (2 ^ lg)%nat -> length F = (2 ^ lg)%nat -> length G = (2 ^ lg)%nat -> length h = (2 ^ lg)%nat ->
  ntru (2 ^ lg) f g F G -> (exists fi, length fi = (2 ^ lg)%nat /\ modq (negacyclic (2 ^ lg) f fi) = onep (2 ^ lg)) ->
  modq (negacyclic (2 ^ lg) h f) = modq g ->
  let N := (2 ^ lg)%nat in
  let s2 := padd N (negacyclic N z0 f) (negacyclic N z1 F) in
  let s1 := psub N (psub N c (negacyclic N z0 g)) (negacyclic N z1 G) in
  sqnorm s1 + sqnorm s2 <= beta2 lg -> (lg = 10%nat -> ~ In 6144 s1) -> vnorm lg c s2 h <= sqnorm s1 + sqnorm s2.
Proof.
  intros Hlg Lf Lg LF LG Lh HN HI HP N s2 s1 B NI. unfold vnorm. unfold s2, N. rewrite sign_equation with (f := f) (g := g) (F := F) (G := G) by assumption.
  fold N. fold s1. fold s2. unfold modq. rewrite map_map.
  assert (NI' : ~ In 6144 s1).
  { destruct Hlg as [E | E]; [|apply NI; exact E]. intros I. pose proof (sqnorm_in _ _ I). pose proof (sqnorm_nonneg s2). rewrite E in B. change (beta2 9) with 34034726 in B. lia. }
  pose proof (sqnorm_map_le (fun x => lift (x mod q)) (fun x => x) s1) as M. rewrite map_id in M.
  enough (sqnorm (map (fun x => lift (x mod q)) s1) <= sqnorm s1) by lia. apply M. intros x Hx. apply lift_mod_le. intros ->. contradiction.
Qed.

Lemma completeness lg f g F G h0 h pk0 pk z0 z1 c salt msg e x xof : falcon_lg lg -> (forall a, byte_stream (xof a)) ->
  length f = (2 ^ lg)%nat -> length g = (2 ^ lg)%nat -> length F = (2 ^ lg)%nat -> length G = (2 ^ lg)%nat ->
  Forall smallq f -> Forall smallq g -> length h0 = (2 ^ lg)%nat -> length pk0 = pkey_len lg ->
  ntru (2 ^ lg) f g F G -> is_poly_invertible lg f = Ok true -> compute_public_key lg f g h0 = Ok h -> encode_pkey lg h pk0 = Ok pk ->
  length salt = 40%nat -> bytes salt -> bytes x -> (2 <= length x)%nat -> hashed (xof (salt ++ msg)) lg c ->
  let N := (2 ^ lg)%nat in
  let s2 := padd N (negacyclic N z0 f) (negacyclic N z1 F) in
  let s1 := psub N (psub N c (negacyclic N z0 g)) (negacyclic N z1 G) in
  sqnorm s1 + sqnorm s2 <= beta2 lg -> Forall (fun v => Z.abs v <= 1023) s2 -> (lg = 10%nat -> ~ In 6144 s1) ->
  (exists r, length r = (sig_bytes lg - 41)%nat /\ bytes r /\ compress_sig lg s2 ((48 + Z.of_nat lg :: salt) ++ r) = Ok (true, e)) ->
  exists fuel0, forall fuel m, (fuel0 <= fuel)%nat -> verify m fuel xof lg pk msg (e ++ x) = Ok true.
Proof.
  intros Hlg Hx Lf Lg LF LG Sf Sg Lh0 Lpk0 HN HI HK HE Ls Bs Bx Lx Hc N s2 s1 B S2 NI (r & Lr & Br & HC).
  destruct (sig_dims lg Hlg) as (D1 & D2 & D3 & D4).
  destruct (public_key_spec lg f g h0 Hlg Lf Lg Lh0 Sf Sg HI) as (h' & E & Lh & Ch & HP & _). assert (h' = h) by congruence. subst h'.
  assert (Vh : Forall lt14 h) by (eapply Forall_impl; [|exact Ch]; intros a; apply canon_lt14).
  destruct (pk_round lg h pk0 (repeat 0 (2 ^ lg)%nat) Hlg Lh Vh Lpk0 (repeat_length _ _)) as (pk' & E' & Lpk & Bpk & P0 & DP).
  assert (pk' = pk) by congruence. subst pk'.
  assert (Ls2 : length s2 = (2 ^ lg)%nat) by apply tab_length.
  assert (Lsig : length ((48 + Z.of_nat lg :: salt) ++ r) = sig_bytes lg) by (rewrite app_length; cbn [length]; lia).
  assert (Bsig : bytes ((48 + Z.of_nat lg :: salt) ++ r)).
  { apply Forall_app. split; [|exact Br]. apply Forall_cons; [destruct Hlg as [-> | ->]; vm_compute; split; congruence|exact Bs]. }
  destruct (compress_true lg s2 _ e Hlg Ls2 Lsig Bsig HC) as (Le & Be & F41 & T & BB).
  assert (P : firstn 41 e = 48 + Z.of_nat lg :: salt) by (rewrite F41; apply firstn_lead; cbn [length]; lia).
  assert (EE : exists t, e = 48 + Z.of_nat lg :: salt ++ t) by (exists (skipn 41 e); rewrite <- (firstn_skipn 41 e) at 1; rewrite P; reflexivity).
  destruct EE as [t Et].
  assert (ES : firstn 40 (skipn 1 (e ++ x)) = salt) by (rewrite Et; cbn [app skipn]; rewrite <- app_assoc; apply firstn_lead; exact Ls).
  assert (A : accepts lg (e ++ x) s2).
  { destruct (encs_words s2 S2) as [W C]. split; [exact Ls2|]. exists (map enc s2), (Z.to_nat (body_len lg - tot s2)).
    split; [exact W|]. split; [lia|]. rewrite C. apply BB. }
  assert (VN : vnorm lg c s2 h <= beta2 lg).
  { eapply Z.le_trans; [|exact B]. apply (honest_norm lg f g F G h z0 z1 c); try assumption.
    apply (proj1 (invertible_iff lg f Hlg Lf)). destruct (is_poly_invertible_ok lg f Hlg Lf Sf) as (b & E1 & H1). rewrite HI in E1. injection E1 as <-. apply H1. reflexivity. }
  assert (V0 : 0 <= vnorm lg c s2 h) by (unfold vnorm; pose proof (sqnorm_nonneg s2); pose proof (sqnorm_nonneg (map lift (s1_residues lg c s2 h))); lia).
  assert (B2 : beta2 lg < 2147483648) by (destruct Hlg as [-> | ->]; vm_compute; reflexivity).
  destruct (hashed_fuel xof lg salt msg c (Hx _) Hc) as (f0 & HF). exists f0. intros fuel m Hf.
  destruct (verify_ok m fuel xof lg pk msg (e ++ x) Hlg Hx Bpk Lpk) as (_ & _ & _ & V4);
    [apply Forall_app; split; assumption|rewrite app_length; lia|].
  rewrite (V4 h s2 DP) by (try exact A; rewrite Et; reflexivity). rewrite ES, HF by (try apply repeat_length; exact Hf). cbn [bind].
  destruct m.
  - rewrite (proj2 (Z.ltb_lt _ _)), (proj2 (Z.leb_le _ _)) by lia. reflexivity.
  - rewrite i32_id, (proj2 (Z.leb_le _ _)) by lia. reflexivity.
Qed.

(** ** a family of keys satisfying the hypotheses of completeness: f = 1, g and F arbitrary *)
Lemma zsum_single n f k : (k < n)%nat -> (forall i, (i < n)%nat -> i <> k -> f i = 0) -> zsum n f = f k.
Proof.
  assert (Z0 : forall n f, (forall j, (j < n)%nat -> f j = 0) -> zsum n f = 0).
  { clear. induction n as [|n IH]; intros f Hf; [reflexivity|]. cbn [zsum]. rewrite IH, Hf by (intros; try apply Hf; lia). reflexivity. }
  revert f. induction n as [|n IH]; intros f Hk H; [lia|]. cbn [zsum]. destruct (Nat.eq_dec k n) as [->|N].
  - rewrite Z0; [reflexivity|]. intros j Hj. apply H; lia.
  - rewrite IH by (try (intros; apply H); lia). rewrite (H n) by lia. ring.
Qed.
Lemma nth_onep n i : nth i (onep n) 0 = if Nat.eqb i 0 && Nat.ltb i n then 1 else 0.
Proof.
  unfold onep. destruct (Nat.ltb_spec i n) as [L|G]; [rewrite nth_tab by exact L; destruct (Nat.eqb i 0); reflexivity|].
  rewrite nth_overflow by (rewrite tab_length; exact G). rewrite andb_false_r. reflexivity.
Qed.
Lemma negacyclic_one_l n a : length a = n -> negacyclic n (onep n) a = a.
Proof.
  intros L. apply (list_ext 0); [rewrite negacyclic_length; symmetry; exact L|]. rewrite negacyclic_length. intros k Hk.
  unfold negacyclic. rewrite nth_tab by exact Hk. rewrite (zsum_single n _ 0) by (try lia; intros i Hi Ni; rewrite nth_onep, (proj2 (Nat.eqb_neq _ _)) by exact Ni; reflexivity).
  rewrite nth_onep, Nat.eqb_refl, (proj2 (Nat.ltb_lt _ _)) by lia. cbn [andb Nat.leb]. rewrite Nat.sub_0_r. ring.
Qed.
Lemma negacyclic_one_r n a : length a = n -> negacyclic n a (onep n) = a.
Proof.
  intros L. apply (list_ext 0); [rewrite negacyclic_length; symmetry; exact L|]. rewrite negacyclic_length. intros k Hk.
  unfold negacyclic. rewrite nth_tab by exact Hk. rewrite (zsum_single n _ k).
  - rewrite Nat.leb_refl, nth_onep, Nat.sub_diag, (proj2 (Nat.ltb_lt _ _)) by lia. cbn [andb Nat.eqb]. ring.
  - exact Hk.
  - intros i Hi Ni. destruct (Nat.leb_spec i k); rewrite nth_onep.
    + rewrite (proj2 (Nat.eqb_neq _ _)) by lia. cbn [andb]. ring.
    + rewrite (proj2 (Nat.eqb_neq _ _)) by lia. cbn [andb]. ring.
Qed.

Lemma honest_example : exists f g F G h pk z0 z1 c salt e xof,
  (forall a, byte_stream (xof a)) /\ length f = 512%nat /\ length g = 512%nat /\ length F = 512%nat /\ length G = 512%nat /\
  Forall smallq f /\ Forall smallq g /\ ntru 512 f g F G /\ is_poly_invertible 9 f = Ok true /\
  compute_public_key 9 f g (repeat 0 512) = Ok h /\ encode_pkey 9 h (repeat 0 897) = Ok pk /\
  length salt = 40%nat /\ bytes salt /\ hashed (xof (salt ++ [1; 2; 3])) 9 c /\
  let s2 := padd 512 (negacyclic 512 z0 f) (negacyclic 512 z1 F) in
  let s1 := psub 512 (psub 512 c (negacyclic 512 z0 g)) (negacyclic 512 z1 G) in
  sqnorm s1 + sqnorm s2 <= beta2 9 /\ 100 <= sqnorm s2 /\ Forall (fun v => Z.abs v <= 1023) s2 /\
  exists r, length r = 625%nat /\ bytes r /\ compress_sig 9 s2 ((48 + 9 :: salt) ++ r) = Ok (true, e).
Proof.
  assert (Hlg : falcon_lg 9) by (left; reflexivity).
  pose (one := onep 512). pose (z0 := repeat 5 512).
  assert (L1 : length one = 512%nat) by apply tab_length.
  assert (S1 : Forall smallq one).
  { apply Forall_nth_intro with (d := 0). rewrite L1. intros i Hi. unfold one. rewrite nth_onep. destruct (_ && _); unfold smallq, q; lia. }
  assert (I1 : is_poly_invertible 9 one = Ok true).
  { destruct (is_poly_invertible_spec 9 one Hlg L1 S1) as (b & E & H). rewrite E. f_equal. apply H. exists one. split; [exact L1|].
    change (2 ^ 9)%nat with 512%nat. unfold one. rewrite negacyclic_one_l by exact L1. vm_compute. reflexivity. }
  destruct (public_key_spec 9 one one (repeat 0 512) Hlg L1 L1 (repeat_length _ _) S1 S1 I1) as (h & EK & Lh & Ch & _).
  assert (Vh : Forall lt14 h) by (eapply Forall_impl; [|exact Ch]; intros a; apply canon_lt14).
  destruct (pk_round 9 h (repeat 0 897) (repeat 0 512) Hlg Lh Vh (repeat_length _ _) (repeat_length _ _)) as (pk & EP & _).
  pose (G := tab 512 (fun k => if Nat.eqb k 0 then q + 3 else 3)).
  assert (LG : length G = 512%nat) by apply tab_length.
  set (salt := repeat 9 40). pose (s2 := padd 512 (negacyclic 512 z0 one) (negacyclic 512 (repeat 0 512) (repeat 3 512))).
  assert (Lz : length z0 = 512%nat) by apply repeat_length.
  assert (NZ : forall b : list Z, negacyclic 512 (repeat 0 512) b = repeat 0 512).
  { intros b. apply (list_ext 0); [rewrite negacyclic_length, repeat_length; reflexivity|]. rewrite negacyclic_length. intros k Hk.
    unfold negacyclic. rewrite nth_tab by exact Hk. rewrite nth_rep0. rewrite (zsum_single 512 _ 0); [rewrite nth_rep0; ring|lia|]. intros i Hi _. rewrite nth_rep0. ring. }
  assert (Es : s2 = z0).
  { unfold s2. rewrite NZ. unfold one. rewrite negacyclic_one_r by exact Lz. unfold padd. apply (list_ext 0); [rewrite tab_length; symmetry; exact Lz|].
    rewrite tab_length. intros i Hi. rewrite nth_tab by exact Hi. rewrite nth_rep0. ring. }
  assert (Lsig : length ((48 + 9 :: salt) ++ repeat 0 625) = sig_bytes 9) by (vm_compute; reflexivity).
  destruct (proj1 (compress_ok 9 s2 ((48 + 9 :: salt) ++ repeat 0 625) Hlg ltac:(rewrite Es; exact Lz) Lsig)) as (body & EC & _).
  { rewrite Es. unfold z0. rewrite tot_repeat. vm_compute. congruence. }
  exists one, one, (repeat 3 512), G, h, pk, z0, (repeat 0 512), (repeat 0 512), salt, (firstn 41 ((48 + 9 :: salt) ++ repeat 0 625) ++ body), (const_xof 0).
  split; [intros a; apply const_xof_ok; lia|]. split; [exact L1|]. split; [exact L1|]. split; [apply repeat_length|]. split; [exact LG|].
  split; [exact S1|]. split; [exact S1|]. split.
  { intros k Hk. unfold one. rewrite !negacyclic_one_l by (try apply repeat_length; exact LG). unfold G. rewrite nth_tab by exact Hk.
    rewrite (nth_indep _ 0 3) by (rewrite repeat_length; exact Hk). rewrite nth_repeat. destruct (Nat.eqb k 0); unfold q; lia. }
  split; [exact I1|]. split; [exact EK|]. split; [exact EP|]. split; [reflexivity|]. split; [apply Forall_rep; unfold byte; lia|].
  split; [apply (const_hashed 0 _ 9); lia|]. fold s2. cbv zeta. rewrite Es. rewrite NZ.
  split; [unfold one; rewrite negacyclic_one_r by exact Lz; vm_compute; congruence|]. split; [unfold z0; rewrite sqnorm_rep; vm_compute; congruence|].
  split; [apply Forall_rep; simpl; lia|]. exists (repeat 0 625). split; [reflexivity|]. split; [apply Forall_rep; unfold byte; lia|].
  rewrite Es in EC. rewrite EC. apply (f_equal (fun b : bool => Ok (b, _))). unfold z0. rewrite tot_repeat. vm_compute. reflexivity.
Qed.
