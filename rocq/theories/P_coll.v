(** P_coll.v -- two short vectors for one point differ by a short vector of the public lattice. *)
From Verif Require Import Base Spec SpecT SpecV SpecX SpecR SpecG SpecJ SpecM M_ff M_codec M_sig M_verify P_ff P_ntt P_nttx P_keys P_decomp P_comp P_sigx P_hash P_verify P_verifyx.
From Verif Require P_keys P_decomp P_ntt.
Open Scope Z_scope.

Lemma nth_psub n a b i : (i < n)%nat -> nth i (psub n a b) 0 = nth i a 0 - nth i b 0.
Proof. intros H. unfold psub. rewrite nth_tab by exact H. reflexivity. Qed.
Lemma zsum_sub n f g : zsum n (fun i => f i - g i) = zsum n f - zsum n g.
Proof. induction n as [|n IH]; [reflexivity|]. cbn [zsum]. rewrite IH. ring. Qed.
Lemma zsum_eq n f g : (forall i, (i < n)%nat -> f i = g i) -> zsum n f = zsum n g.
Proof. induction n as [|n IH]; intros H; [reflexivity|]. cbn [zsum]. rewrite IH, H by (intros; try apply H; lia). reflexivity. Qed.
Lemma nega_psub n a b h i : (i < n)%nat -> nth i (negacyclic n (psub n a b) h) 0 = nth i (negacyclic n a h) 0 - nth i (negacyclic n b h) 0.
Proof.
  intros H. unfold negacyclic. rewrite !nth_tab by exact H. rewrite <- zsum_sub. apply zsum_eq. intros j Hj. rewrite nth_psub by exact Hj. ring.
Qed.
Lemma point_psub lg h a b : point_of lg h a = point_of lg h b -> point_of lg h (psub (2 ^ lg) (fst a) (fst b), psub (2 ^ lg) (snd a) (snd b)) = repeat 0 (2 ^ lg).
Proof.
  intros E. apply (list_ext 0); [unfold point_of; rewrite tab_length, repeat_length; reflexivity|]. unfold point_of at 1. rewrite tab_length. intros i Hi. rewrite nth_rep0. unfold point_of. rewrite nth_tab by exact Hi. cbn [fst snd].
  rewrite nth_psub, nega_psub by exact Hi. assert (Ei := f_equal (fun l => nth i l 0) E). unfold point_of in Ei. cbv beta in Ei. rewrite !nth_tab in Ei by exact Hi.
  replace (nth i (fst a) 0 - nth i (fst b) 0 + (nth i (negacyclic (2 ^ lg) (snd a) h) 0 - nth i (negacyclic (2 ^ lg) (snd b) h) 0)) with ((nth i (fst a) 0 + nth i (negacyclic (2 ^ lg) (snd a) h) 0) - (nth i (fst b) 0 + nth i (negacyclic (2 ^ lg) (snd b) h) 0)) by ring.
  rewrite Zminus_mod, Ei, Z.sub_diag. reflexivity.
Qed.
Lemma lift_mod v : 0 <= v < q -> (Spec.lift v) mod q = v.
Proof. intros H. unfold Spec.lift. destruct (v <? 6144); [apply Z.mod_small; exact H|]. replace (v - q) with (v + (-1) * q) by ring. rewrite Z.mod_add by (unfold q; lia). apply Z.mod_small. exact H. Qed.
Lemma signed_point lg h c s2 : length c = (2 ^ lg)%nat -> Forall canon c -> point_of lg h (signed_vector lg h c s2) = c.
Proof.
  intros Lc Cc. apply (list_ext 0); [unfold point_of; rewrite tab_length; symmetry; exact Lc|]. unfold point_of at 1. rewrite tab_length. intros i Hi. unfold point_of, signed_vector. rewrite nth_tab by exact Hi. cbn [fst snd].
  change 0 with (Spec.lift 0) at 1. rewrite map_nth. unfold s1_residues. rewrite nth_tab by exact Hi. set (m := nth i (negacyclic (2 ^ lg) s2 h) 0).
  assert (Q : 0 <= (nth i c 0 - m) mod q < q) by (apply Z.mod_pos_bound; unfold q; lia). rewrite Zplus_mod, lift_mod, <- Zplus_mod by exact Q.
  replace (nth i c 0 - m + m) with (nth i c 0) by ring. apply Z.mod_small. exact (P_ntt.canon_forall_nth c _ Lc Cc i Hi).
Qed.
Lemma sqnorm_tab n f : sqnorm (tab n f) = zsum n (fun i => f i * f i).
Proof.
  unfold tab. induction n as [|n IH]; [reflexivity|]. rewrite seq_S, map_app. cbn [map zsum Nat.add].
  assert (G : forall l x, sqnorm (l ++ [x]) = sqnorm l + x * x). { induction l as [|y l IHl]; intros x; [cbn; ring|]. cbn [app]. rewrite !sqnorm_cons, IHl. ring. }
  rewrite G, IH. reflexivity.
Qed.
Lemma sqnorm_zsum n a : length a = n -> sqnorm a = zsum n (fun i => nth i a 0 * nth i a 0).
Proof. intros L. rewrite <- sqnorm_tab. f_equal. apply (list_ext 0); [rewrite tab_length; exact L|]. intros i Hi. rewrite nth_tab by lia. reflexivity. Qed.
Lemma zsum_le n f g : (forall i, (i < n)%nat -> f i <= g i) -> zsum n f <= zsum n g.
Proof. induction n as [|n IH]; intros H; cbn [zsum]; [lia|]. assert (Q := H n ltac:(lia)). assert (Q' := IH (fun i Hi => H i ltac:(lia))). lia. Qed.
Lemma zsum_add2 n f g : zsum n (fun i => 2 * f i + 2 * g i) = 2 * zsum n f + 2 * zsum n g.
Proof. induction n as [|n IH]; [reflexivity|]. cbn [zsum]. rewrite IH. ring. Qed.
Lemma sqnorm_psub n a b : length a = n -> length b = n -> sqnorm (psub n a b) <= 2 * sqnorm a + 2 * sqnorm b.
Proof.
  intros La Lb. unfold psub. rewrite sqnorm_tab, (sqnorm_zsum n a La), (sqnorm_zsum n b Lb), <- zsum_add2. apply zsum_le. intros i _. set (x := nth i a 0). set (y := nth i b 0).
  assert (Q := Z.square_nonneg (x + y)). nia.
Qed.
Lemma psub_zero n a b : length a = n -> length b = n -> sqnorm (psub n a b) = 0 -> a = b.
Proof.
  intros La Lb E. apply (list_ext 0); [congruence|]. intros i Hi. rewrite La in Hi. assert (Q := sqnorm_in (nth i (psub n a b) 0) (psub n a b)). assert (H : In (nth i (psub n a b) 0) (psub n a b)) by (apply nth_In; unfold psub; rewrite tab_length; exact Hi).
  specialize (Q H). rewrite E, nth_psub in Q by exact Hi. nia.
Qed.
Lemma short_diff lg h a b : length (fst a) = (2 ^ lg)%nat -> length (snd a) = (2 ^ lg)%nat -> length (fst b) = (2 ^ lg)%nat -> length (snd b) = (2 ^ lg)%nat -> point_of lg h a = point_of lg h b -> a <> b ->
  sqnorm (fst a) + sqnorm (snd a) <= beta2 lg -> sqnorm (fst b) + sqnorm (snd b) <= beta2 lg -> short_vector lg h (psub (2 ^ lg) (fst a) (fst b), psub (2 ^ lg) (snd a) (snd b)) = true.
Proof.
  intros L1 L2 L3 L4 E N B1 B2. unfold short_vector. rewrite (point_psub lg h a b E). cbn [fst snd]. unfold psub at 1 2. rewrite !tab_length, Nat.eqb_refl. cbn [andb]. destruct (list_eq_dec Z.eq_dec _ _) as [_|C]; [|contradict C; reflexivity].
  assert (P1 := sqnorm_psub (2 ^ lg) (fst a) (fst b) L1 L3). assert (P2 := sqnorm_psub (2 ^ lg) (snd a) (snd b) L2 L4). assert (Q1 := sqnorm_nonneg (psub (2 ^ lg) (fst a) (fst b))). assert (Q2 := sqnorm_nonneg (psub (2 ^ lg) (snd a) (snd b))).
  cbn [andb]. apply Bool.andb_true_iff. split; [|apply Z.leb_le; lia]. apply Z.ltb_lt.
  destruct (Z.eq_dec (sqnorm (psub (2 ^ lg) (fst a) (fst b))) 0) as [E1|]; [|lia]. destruct (Z.eq_dec (sqnorm (psub (2 ^ lg) (snd a) (snd b))) 0) as [E2|]; [|lia].
  exfalso. apply N. destruct a, b. cbn [fst snd] in *. f_equal; [apply (psub_zero _ _ _ L1 L3 E1)|apply (psub_zero _ _ _ L2 L4 E2)].
Qed.
Lemma signed_length lg h c s2 : length (fst (signed_vector lg h c s2)) = (2 ^ lg)%nat.
Proof. unfold signed_vector. cbn [fst]. rewrite map_length. unfold s1_residues. apply tab_length. Qed.
Lemma signed_norm lg h c s2 : sqnorm (fst (signed_vector lg h c s2)) + sqnorm (snd (signed_vector lg h c s2)) = vnorm lg c s2 h.
Proof. unfold signed_vector, vnorm. cbn [fst snd]. ring. Qed.

(** ** two signatures on one salt and message *)
Theorem two_signatures xof lg pk msg sig sig' h s2 s2' : falcon_lg lg -> (forall a, byte_stream (xof a)) -> bytes pk -> length pk = pkey_len lg ->
  bytes sig -> (sig_bytes lg + 2 <= length sig)%nat -> bytes sig' -> (sig_bytes lg + 2 <= length sig')%nat -> decode_pkey lg pk (repeat 0 (2 ^ lg)) = Ok (true, h) ->
  firstn 40 (skipn 1 sig) = firstn 40 (skipn 1 sig') -> (exists fuel, verify Strict fuel xof lg pk msg sig = Ok true) -> (exists fuel, verify Strict fuel xof lg pk msg sig' = Ok true) ->
  decompress_sig lg sig (repeat 0 (2 ^ lg)) = Ok (true, s2) -> decompress_sig lg sig' (repeat 0 (2 ^ lg)) = Ok (true, s2') -> s2 <> s2' ->
  exists c, hashed (xof (firstn 40 (skipn 1 sig) ++ msg)) lg c /\
    let v := signed_vector lg h c s2 in let v' := signed_vector lg h c s2' in short_vector lg h (psub (2 ^ lg) (fst v) (fst v'), psub (2 ^ lg) (snd v) (snd v')) = true.
Proof.
  intros Hlg Hx Bp Lp Bs Ls Bs' Ls' Hh ES V V' D D' N.
  apply (verify_true_iff xof lg pk msg sig Hlg Hx Bp Lp Bs Ls) in V. apply (verify_true_iff xof lg pk msg sig' Hlg Hx Bp Lp Bs' Ls') in V'.
  destruct V as (h1 & t2 & c & Eh & _ & Ac & Hc & Nc). destruct V' as (h2 & t2' & c' & Eh' & _ & Ac' & Hc' & Nc'). assert (h1 = h) by congruence. assert (h2 = h) by congruence. subst h1 h2.
  rewrite <- ES in Hc'. assert (c' = c) by exact (hashed_unique _ _ _ _ Hc' Hc). subst c'.
  destruct (decompress_iff lg sig (repeat 0 (2 ^ lg)%nat) Hlg Bs Ls (repeat_length _ _)) as (b & s & E1 & L1 & _ & A2). destruct (A2 t2 Ac) as [Eb Et]. assert (t2 = s2) by congruence. clear Et.
  destruct (decompress_iff lg sig' (repeat 0 (2 ^ lg)%nat) Hlg Bs' Ls' (repeat_length _ _)) as (b' & s' & E1' & L1' & _ & A2'). destruct (A2' t2' Ac') as [Eb' Et']. assert (t2' = s2') by congruence. clear Et'. subst t2 t2'.
  destruct (hashed_facts _ _ _ Hc) as [Lc Cc]. exists c. split; [exact Hc|]. intros v v'. apply short_diff.
  - apply signed_length.
  - unfold v, signed_vector. cbn [snd]. destruct Ac as [Q _]. exact Q.
  - apply signed_length.
  - unfold v', signed_vector. cbn [snd]. destruct Ac' as [Q _]. exact Q.
  - unfold v, v'. rewrite !signed_point by assumption. reflexivity.
  - intros E. apply N. exact (f_equal snd E).
  - unfold v. rewrite signed_norm. exact Nc.
  - unfold v'. rewrite signed_norm. exact Nc'.
Qed.
Lemma nega_zero n a i : (i < n)%nat -> nth i (negacyclic n a (repeat 0 n)) 0 = 0.
Proof.
  intros Hi. unfold negacyclic. rewrite nth_tab by exact Hi. rewrite (zsum_eq n _ (fun _ => 0)); [|intros j _; rewrite !nth_rep0; destruct (Nat.leb j i); ring].
  clear. induction n as [|n IH]; [reflexivity|]. cbn [zsum]. rewrite IH. reflexivity.
Qed.
Lemma vnorm_flat lg w s2 : 0 <= w < 6144 -> vnorm lg (repeat w (2 ^ lg)) s2 (repeat 0 (2 ^ lg)) = sqnorm s2 + Z.of_nat (2 ^ lg) * (w * w).
Proof.
  intros Hw. unfold vnorm. f_equal. replace (s1_residues lg (repeat w (2 ^ lg)) s2 (repeat 0 (2 ^ lg))) with (repeat w (2 ^ lg)).
  - rewrite map_repeat. replace (Spec.lift w) with w by (unfold Spec.lift; rewrite (proj2 (Z.ltb_lt _ _)) by lia; reflexivity). apply sqnorm_rep.
  - apply (list_ext 0); [unfold s1_residues; rewrite tab_length; apply repeat_length|]. rewrite repeat_length. intros i Hi. unfold s1_residues. rewrite nth_tab, nega_zero, Z.sub_0_r by exact Hi.
    rewrite (nth_indep _ 0 w) by (rewrite repeat_length; exact Hi). rewrite nth_repeat. symmetry. apply Z.mod_small. unfold q. lia.
Qed.
(** signature bytes for a small vector *)
Lemma vec_sig lg s : falcon_lg lg -> length s = (2 ^ lg)%nat -> Forall (fun x => Z.abs x <= 1023) s -> tot s < body_len lg -> tot s <= 14 * 2 ^ Z.of_nat lg ->
  exists body, length body = (sig_bytes lg - 41)%nat /\ bytes body /\ forall hd salt x, length salt = 40%nat -> accepts lg (hd :: salt ++ body ++ x) s.
Proof.
  intros Hlg F1 F2 F3 F4. destruct (sig_dims lg Hlg) as (D1 & D2 & D3 & D4).
  destruct (compress_ok lg s (repeat 0 (sig_len lg)) Hlg F1 (repeat_length _ _)) as [C _]. destruct (C F4) as (body & _ & B & L & H & _). rewrite D2 in L. specialize (H F3).
  exists body. split; [exact L|]. split; [exact B|]. intros hd salt x Ls. split; [exact F1|]. destruct (encs_words _ F2) as [W E].
  exists (map enc s), (Z.to_nat (body_len lg - tot s)). split; [exact W|]. split; [lia|]. rewrite E, <- H. unfold body_bits. f_equal.
  change (hd :: salt ++ body ++ x) with ((hd :: salt) ++ body ++ x). rewrite skipn_app, skipn_all2 by (cbn [length]; lia). cbn [app length]. rewrite Ls. cbn [Nat.sub skipn]. rewrite <- L. apply firstn_lead. reflexivity.
Qed.
Lemma two_example : exists pk h sig sig' s2 s2', bytes pk /\ length pk = pkey_len 9 /\ bytes sig /\ (sig_bytes 9 + 2 <= length sig)%nat /\ bytes sig' /\ (sig_bytes 9 + 2 <= length sig')%nat /\
  decode_pkey 9 pk (repeat 0 512) = Ok (true, h) /\ firstn 40 (skipn 1 sig) = firstn 40 (skipn 1 sig') /\
  (exists fuel, verify Strict fuel (const_xof 7) 9 pk [] sig = Ok true) /\ (exists fuel, verify Strict fuel (const_xof 7) 9 pk [] sig' = Ok true) /\
  decompress_sig 9 sig (repeat 0 512) = Ok (true, s2) /\ decompress_sig 9 sig' (repeat 0 512) = Ok (true, s2') /\ s2 <> s2'.
Proof.
  assert (H9 : falcon_lg 9) by (left; reflexivity). set (salt := repeat 3 40). set (v := 1 :: repeat 0 511). set (v' := repeat 0 512).
  destruct (vec_sig 9 v H9) as (b & Lb & Bb & Ab); [unfold v; cbn [length]; rewrite repeat_length; reflexivity|unfold v; constructor; [simpl; lia|apply Forall_rep; simpl; lia]|vm_compute; reflexivity|vm_compute; congruence|].
  destruct (vec_sig 9 v' H9) as (b' & Lb' & Bb' & Ab'); [apply repeat_length|apply Forall_rep; simpl; lia|vm_compute; reflexivity|vm_compute; congruence|].
  destruct (pk_round 9 (repeat 0 512) (repeat 0 (pkey_len 9)) (repeat 0 512) H9 (repeat_length _ _)) as (pk & _ & Lp & Bp & _ & Dp); [apply Forall_rep; unfold lt14; lia|apply repeat_length|apply repeat_length|].
  assert (BY : forall x, bytes x -> bytes (57 :: salt ++ x ++ [0; 0])) by (intros x Bx; constructor; [unfold byte; lia|]; apply Forall_app; split; [apply Forall_rep; unfold byte; lia|]; apply Forall_app; split; [exact Bx|]; repeat (constructor; [unfold byte; lia|]); constructor).
  assert (LE : forall x : list Z, length x = (sig_bytes 9 - 41)%nat -> (sig_bytes 9 + 2 <= length (57%Z :: salt ++ x ++ [0%Z; 0%Z]))%nat) by (intros x Lx; cbn [length]; rewrite !app_length, Lx; unfold salt; rewrite repeat_length; cbn [length]; unfold sig_bytes; cbn; lia).
  assert (Ls : length salt = 40%nat) by apply repeat_length. specialize (Ab 57 salt [0; 0] Ls). specialize (Ab' 57 salt [0; 0] Ls).
  assert (HX : forall a, byte_stream (const_xof 7 a)) by (intros a; apply const_xof_ok; lia).
  exists pk, (repeat 0 512), (57 :: salt ++ b ++ [0; 0]), (57 :: salt ++ b' ++ [0; 0]), v, v'. split; [exact Bp|]. split; [exact Lp|]. split; [apply BY, Bb|]. split; [apply LE, Lb|]. split; [apply BY, Bb'|]. split; [apply LE, Lb'|]. split; [exact Dp|].
  assert (F40 : forall x, firstn 40 (skipn 1 (57 :: salt ++ x)) = salt) by (intros x; cbn [skipn]; apply firstn_lead; exact Ls). split; [rewrite !F40; reflexivity|].
  assert (VV : forall x s, bytes x -> length x = (sig_bytes 9 - 41)%nat -> accepts 9 (57 :: salt ++ x ++ [0; 0]) s -> sqnorm s <= 1 -> exists fuel, verify Strict fuel (const_xof 7) 9 pk [] (57 :: salt ++ x ++ [0; 0]) = Ok true).
  { intros x s Bx Lx Ax Nx. apply (verify_true_iff (const_xof 7) 9 pk [] _ H9 HX Bp Lp (BY x Bx) (LE x Lx)). exists (repeat 0 512), s, (repeat 7 (2 ^ 9)). split; [exact Dp|]. split; [reflexivity|]. split; [exact Ax|]. split; [apply const_hashed; lia|].
    change 512%nat with (2 ^ 9)%nat. rewrite vnorm_flat by lia. assert (E : Z.of_nat (2 ^ 9) * (7 * 7) = 25088) by reflexivity. rewrite E. unfold beta2. cbn [Nat.eqb]. lia. }
  split; [apply (VV b v); [exact Bb|exact Lb|exact Ab|vm_compute; congruence]|]. split; [apply (VV b' v'); [exact Bb'|exact Lb'|exact Ab'|vm_compute; congruence]|].
  destruct (decompress_iff 9 _ (repeat 0 512) H9 (BY b Bb) (LE b Lb) (repeat_length _ _)) as (c & s & E1 & _ & _ & A2). destruct (A2 v Ab) as [-> ->].
  destruct (decompress_iff 9 _ (repeat 0 512) H9 (BY b' Bb') (LE b' Lb') (repeat_length _ _)) as (c' & s' & E1' & _ & _ & A2'). destruct (A2' v' Ab') as [-> ->].
  split; [exact E1|]. split; [exact E1'|]. discriminate.
Qed.
