(** P_slack.v -- how many readable bytes after the signature verification needs. *)
From Verif Require Import Base Poly Spec M_ff M_codec M_ntt M_sig M_verify P_codec P_sig P_comp P_sigx P_decomp.
From Verif Require P_nttx P_keys.
Open Scope Z_scope.

(** ** more readable memory does not change an answer *)
Lemma rd_more {A} (l y : list A) i v : rd l i = Ok v -> rd (l ++ y) i = Ok v.
Proof. unfold rd. destruct (nth_error l i) eqn:E; [|discriminate]. intros H. rewrite nth_error_app1; [rewrite E; exact H|]. apply nth_error_Some. congruence. Qed.
Lemma rds_more {A} (l y : list A) n : forall o v, rds l o n = Ok v -> rds (l ++ y) o n = Ok v.
Proof.
  induction n as [|n IH]; intros o v; cbn [rds]; [exact (fun H => H)|]. intros H. apply bind_Ok in H. destruct H as (a & Ea & H). rewrite (rd_more _ y _ _ Ea). cbn [bind].
  apply bind_Ok in H. destruct H as (b & Eb & H). rewrite (IH _ _ Eb). exact H.
Qed.
Lemma rdz_more {A} (l y : list A) i v : rdz l i = Ok v -> rdz (l ++ y) i = Ok v.
Proof. unfold rdz. destruct (i <? 0); [discriminate|]. apply rd_more. Qed.
Lemma ext8_more l y i v : extract_8_contiguous_bits l i = Ok v -> extract_8_contiguous_bits (l ++ y) i = Ok v.
Proof.
  unfold extract_8_contiguous_bits. intros H. apply bind_Ok in H. destruct H as (b0 & E0 & H). apply bind_Ok in H. destruct H as (b1 & E1 & H).
  rewrite (rdz_more _ y _ _ E0). cbn [bind]. rewrite (rdz_more _ y _ _ E1). exact H.
Qed.
Lemma extr_more l y i v : extract_rem_contiguous_bits_in_byte l i = Ok v -> extract_rem_contiguous_bits_in_byte (l ++ y) i = Ok v.
Proof. unfold extract_rem_contiguous_bits_in_byte. intros H. apply bind_Ok in H. destruct H as (b0 & E0 & H). rewrite (rdz_more _ y _ _ E0). exact H. Qed.
Lemma long_more l y slen : forall fuel i v, long_run fuel l slen i = Ok v -> long_run fuel (l ++ y) slen i = Ok v.
Proof.
  induction fuel as [|fuel IH]; intros i v; cbn [long_run]; [exact (fun H => H)|]. destruct (i <? slen); [|exact (fun H => H)].
  intros H. apply bind_Ok in H. destruct H as (t & Et & H).
  assert (E : (if Z.min 8 (slen - i) <? 8 then extract_rem_contiguous_bits_in_byte (l ++ y) i else extract_8_contiguous_bits (l ++ y) i) = Ok t).
  { destruct (Z.min 8 (slen - i) <? 8); [apply extr_more|apply ext8_more]; exact Et. }
  rewrite E. cbn [bind]. cbv zeta in H |- *. destruct (clz8 t <? _); [exact H|]. apply IH. exact H.
Qed.
Lemma coeff_more l y slen fuel i v : decompress_coeff fuel l slen i = Ok v -> decompress_coeff fuel (l ++ y) slen i = Ok v.
Proof.
  unfold decompress_coeff. intros H. apply bind_Ok in H. destruct H as (r & Er & H). apply bind_Ok in H. destruct H as (t & Et & H).
  rewrite (ext8_more _ y _ _ Er). cbn [bind]. rewrite (ext8_more _ y _ _ Et). cbn [bind]. cbv zeta in H |- *. destruct (clz8 t <? 8); [exact H|].
  destruct (long_run fuel l slen (i + 8 + clz8 t)) as [b| |] eqn:E; [|discriminate H|discriminate H]. rewrite (long_more _ y _ _ _ _ E). exact H.
Qed.
Lemma loop_more l y slen fuel : forall n i ci p v, decompress_loop n fuel l slen i ci p = Ok v -> decompress_loop n fuel (l ++ y) slen i ci p = Ok v.
Proof.
  induction n as [|n IH]; intros i ci p v; cbn [decompress_loop]; [exact (fun H => H)|]. destruct (i <? slen); [|exact (fun H => H)].
  intros H. apply bind_Ok in H. destruct H as (r & Er & H). rewrite (coeff_more _ y _ _ _ _ Er). cbn [bind]. destruct r as [[c j]|]; [|exact H].
  apply bind_Ok in H. destruct H as (p' & Ep & H). rewrite Ep. cbn [bind]. apply IH. exact H.
Qed.
Lemma trail_more l y slen : forall fuel i f v, trailing_loop fuel l slen i f = Ok v -> trailing_loop fuel (l ++ y) slen i f = Ok v.
Proof.
  induction fuel as [|fuel IH]; intros i f v; cbn [trailing_loop]; [exact (fun H => H)|]. destruct (i <? slen); [|exact (fun H => H)].
  intros H. apply bind_Ok in H. destruct H as (t & Et & H).
  assert (E : (if Z.min 8 (slen - i) =? 8 then extract_8_contiguous_bits (l ++ y) i else extract_rem_contiguous_bits_in_byte (l ++ y) i) = Ok t).
  { destruct (Z.min 8 (slen - i) =? 8); [apply ext8_more|apply extr_more]; exact Et. }
  rewrite E. cbn [bind]. apply IH. exact H.
Qed.
Lemma decomp_more lg l y p v : decompress_sig lg l p = Ok v -> decompress_sig lg (l ++ y) p = Ok v.
Proof.
  unfold decompress_sig. intros H. apply bind_Ok in H. destruct H as ([[[f j] ci] p'] & E & H). rewrite (loop_more _ y _ _ _ _ _ _ _ E). cbn [bind].
  apply bind_Ok in H. destruct H as (f' & Ef & H).
  assert (X : (if negb (f || (j >=? 8 * Z.of_nat (sig_len lg)) || Nat.ltb ci (2 ^ lg)) then trailing_loop (sig_len lg) (l ++ y) (8 * Z.of_nat (sig_len lg)) j (f || (j >=? 8 * Z.of_nat (sig_len lg)) || Nat.ltb ci (2 ^ lg))
     else Ok (f || (j >=? 8 * Z.of_nat (sig_len lg)) || Nat.ltb ci (2 ^ lg))) = Ok f').
  { destruct (negb _); [apply trail_more; exact Ef|exact Ef]. }
  rewrite X. exact H.
Qed.
Lemma decode_more lg l y sa p v : decode_sig lg l sa p = Ok v -> decode_sig lg (l ++ y) sa p = Ok v.
Proof.
  unfold decode_sig. intros H. apply bind_Ok in H. destruct H as (hd & E & H). rewrite (rd_more _ y _ _ E). cbn [bind]. destruct (negb (hd =? _)); [exact H|].
  apply bind_Ok in H. destruct H as ([d s] & Ed & H). rewrite (decomp_more _ _ y _ _ Ed). cbn [bind]. destruct (negb d); [exact H|].
  apply bind_Ok in H. destruct H as (b & Eb & H).
  rewrite (rds_more _ y _ _ _ Eb). exact H.
Qed.
Lemma verify_more mo fuel xof lg pk msg e y b : verify mo fuel xof lg pk msg e = Ok b -> verify mo fuel xof lg pk msg (e ++ y) = Ok b.
Proof.
  unfold verify. intros H. apply bind_Ok in H. destruct H as ([d h] & Ed & H). rewrite Ed. cbn [bind]. destruct (negb d); [exact H|].
  unfold verify_h in H |- *. apply bind_Ok in H. destruct H as ([[d' sa] s] & E & H). rewrite (decode_more _ _ y _ _ _ E). exact H.
Qed.

(** ** one byte is enough for whatever is accepted *)
Lemma slack_one lg mem p0 s : falcon_lg lg -> bytes mem -> (sig_len lg + 1 <= length mem)%nat -> length p0 = (2 ^ lg)%nat -> accepts lg mem s -> decompress_sig lg mem p0 = Ok (true, s).
Proof.
  intros Hlg Hb HL Lp (Ls & ws & z & F & Hz & E). set (L := sig_len lg) in *.
  assert (L41 : (41 <= L)%nat) by (unfold L; destruct Hlg as [-> | ->]; vm_compute; lia).
  unfold decompress_sig. fold L. change (8 + 320) with (Z.of_nat 328).
  rewrite (body_dbits lg mem Hlg) in E. fold L in E.
  pose proof (f_equal (@length _) E) as LE. rewrite skipn_length, dbits_length, app_length, repeat_length in LE by lia.
  assert (EB : skipn 328 (bits_of mem) = concat ws ++ repeat false z ++ skipn (8 * L) (bits_of mem)).
  { rewrite (dbits_split L mem 328) by lia. rewrite E, <- app_assoc. reflexivity. }
  rewrite <- Ls. rewrite (loop_complete mem (8 * Z.of_nat L) L Hb ws s F 328 0 p0 _ EB); try lia; [|rewrite app_length, skipn_length, bits_of_length; lia].
  cbn [bind]. rewrite Z.geb_leb, (proj2 (Z.leb_gt _ _)), Nat.ltb_irrefl by lia. cbn [orb negb].
  rewrite trailing_ok; try assumption; try lia.
  cbn [bind orb]. rewrite (Nat.add_comm 328), <- skipn_skipn, E, skipn_lead by reflexivity.
  rewrite (proj2 (existsb_false (repeat false z))) by (rewrite repeat_length; reflexivity).
  rewrite Nat.mul_0_r. cbn [repeat firstn app]. rewrite wrs_ok by (cbn [length]; lia). reflexivity.
Qed.
Lemma body_same lg e x : length e = sig_bytes lg -> body_bits lg (e ++ x) = body_bits lg e.
Proof. intros Le. unfold body_bits. rewrite skipn_app, firstn_app, skipn_length, Le, Nat.sub_diag, firstn_O, app_nil_r. reflexivity. Qed.
Lemma verify_one mo fuel xof lg pk msg e x b : falcon_lg lg -> length e = sig_bytes lg -> bytes e -> bytes x -> byte b ->
  verify mo fuel xof lg pk msg (e ++ x) = Ok true -> verify mo fuel xof lg pk msg (e ++ [b]) = Ok true.
Proof.
  intros Hlg Le Be Bx Bb V0. assert (V := verify_more _ _ _ _ _ _ _ [0; 0] _ V0). clear V0. rewrite <- app_assoc in V.
  assert (B00 : bytes [0; 0]) by (repeat (apply Forall_cons; [unfold byte; lia|]); apply Forall_nil).
  unfold verify in V |- *. apply bind_Ok in V. destruct V as ([d h] & Ed & V). rewrite Ed. cbn [bind]. destruct d; [|discriminate V]. cbn [negb] in V |- *.
  assert (X : decode_sig lg (e ++ [b]) (repeat 0 40) (repeat 0 (2 ^ lg)) = decode_sig lg (e ++ x ++ [0; 0]) (repeat 0 40) (repeat 0 (2 ^ lg))); [|unfold verify_h in *; rewrite X; exact V].
  unfold verify_h in V. apply bind_Ok in V. destruct V as ([[d sa] s] & Es & V). destruct d; [|discriminate V]. clear V Ed. rewrite Es.
  assert (Lx : (sig_bytes lg + 2 <= length (e ++ x ++ [0%Z; 0%Z]))%nat) by (rewrite !app_length; cbn [length]; lia).
  assert (BX : bytes (e ++ x ++ [0; 0])) by (apply Forall_app; split; [exact Be|apply Forall_app; split; assumption]).
  destruct (decode_sig_ok lg (e ++ x ++ [0; 0]) (repeat 0 40) (repeat 0 (2 ^ lg)) Hlg BX Lx (repeat_length _ _) (repeat_length _ _)) as (d & sa' & s' & E' & _ & _ & G1 & _).
  rewrite Es in E'. injection E' as <- <- <-. destruct (G1 eq_refl) as (H0 & Hsa & AC).
  assert (D : (41 <= sig_bytes lg)%nat) by (destruct Hlg as [-> | ->]; vm_compute; lia).
  assert (AC' : accepts lg (e ++ [b]) s). { destruct AC as (A1 & ws & z & A2 & A3 & A4). split; [exact A1|]. exists ws, z. rewrite body_same in A4 |- * by exact Le. auto. }
  unfold decode_sig. rewrite (rd_Ok (e ++ [b]) 0 0) by (rewrite app_length; lia). cbn [bind].
  assert (HD : Z.lor 48 (Z.of_nat lg) = 48 + Z.of_nat lg) by (destruct Hlg as [-> | ->]; reflexivity).
  rewrite app_nth1 in H0 |- * by lia. rewrite HD, H0, Z.eqb_refl. cbn [negb].
  rewrite (slack_one lg (e ++ [b]) (repeat 0 (2 ^ lg)) s Hlg); [|apply Forall_app; split; [exact Be|repeat constructor; apply Bb]|change (sig_len lg) with (sig_bytes lg); rewrite app_length; cbn [length]; lia|apply repeat_length|exact AC'].
  cbn [bind negb]. rewrite rds_ok by (rewrite app_length; lia). cbn [bind]. rewrite wrs_all by (rewrite slice_length by (rewrite app_length; lia); apply repeat_length). cbn [bind].
  rewrite Hsa. do 3 f_equal. unfold slice. rewrite !skipn_app, !firstn_app, skipn_length. replace (40 - (length e - 1))%nat with 0%nat by lia. reflexivity.
Qed.

(** ** two bytes are needed for some signatures *)
Lemma loop_prefix mem slen fuel : bytes mem -> forall ws cs, Forall2 codeword ws cs -> forall n i ci p rest,
  skipn i (bits_of mem) = concat ws ++ rest -> (8 <= length rest)%nat -> Z.of_nat (i + length (concat ws)) <= slen ->
  (length (concat ws) <= 8 * fuel)%nat -> length p = (ci + (length cs + n))%nat ->
  exists p', length p' = length p /\ decompress_loop (length cs + n) fuel mem slen (Z.of_nat i) ci p = decompress_loop n fuel mem slen (Z.of_nat (i + length (concat ws))) (ci + length cs) p'.
Proof.
  intros Hb ws cs F. induction F as [|w c ws cs Hw F IH]; intros n i ci p rest E Lr Hs Hf Lp.
  - exists p. split; [reflexivity|]. cbn [concat length Nat.add]. rewrite !Nat.add_0_r. reflexivity.
  - cbn [concat length Nat.add decompress_loop] in *. rewrite app_length in *. rewrite <- app_assoc in E. pose proof (codeword_length _ _ Hw).
    rewrite (proj2 (Z.ltb_lt _ _)) by lia.
    rewrite (coeff_complete mem slen fuel i w c (concat ws ++ rest)); try assumption; try lia; [|rewrite app_length; lia].
    cbn [bind]. rewrite wr_Ok by lia. cbn [bind].
    destruct (IH n (i + length w)%nat (S ci) (upd p ci c) rest) as (p' & Lp' & E'); try assumption; try lia.
    + rewrite Nat.add_comm, <- skipn_skipn, E. apply skipn_lead. reflexivity.
    + rewrite upd_length. lia.
    + exists p'. split; [rewrite Lp', upd_length; reflexivity|]. rewrite E'. f_equal; lia.
Qed.

(** coefficients that leave 8 bits to the last one *)
Definition crowd (lg : nat) : list Z := let a := Z.to_nat (body_len lg - 8 - 9 * (2 ^ Z.of_nat lg - 1)) in repeat 128 a ++ repeat 0 (2 ^ lg - 1 - a).
Lemma crowd_facts lg : falcon_lg lg -> length (crowd lg) = (2 ^ lg - 1)%nat /\ Forall (fun v => Z.abs v <= 1023) (crowd lg) /\ Spec.tot (crowd lg) = body_len lg - 8.
Proof.
  intros Hlg. split; [destruct Hlg as [-> | ->]; vm_compute; reflexivity|]. split.
  - apply Forall_app. split; apply P_nttx.Forall_rep; lia.
  - destruct Hlg as [-> | ->]; vm_compute; reflexivity.
Qed.
Lemma crowded lg : falcon_lg lg -> exists e, length e = sig_bytes lg /\ bytes e /\ nth 0 e 0 = 48 + Z.of_nat lg /\
  (forall b (p0 : list Z), byte b -> length p0 = (2 ^ lg)%nat -> decompress_sig lg (e ++ [b]) p0 = UB) /\
  (forall x (p0 : list Z), bytes x -> (2 <= length x)%nat -> length p0 = (2 ^ lg)%nat -> decompress_sig lg (e ++ x) p0 = Ok (false, repeat 0 (2 ^ lg))).
Proof.
  intros Hlg. destruct (crowd_facts lg Hlg) as (Lc & Sc & Tc). destruct (sig_dims lg Hlg) as (D1 & D2 & D3 & D4). destruct (encs_words _ Sc) as [F C].
  assert (D41 : (43 <= sig_bytes lg)%nat) by (destruct Hlg as [-> | ->]; vm_compute; lia).
  assert (LB : (length (encs (crowd lg)) = 8 * (sig_bytes lg - 42))%nat). { apply Nat2Z.inj. rewrite encs_length, Tc. unfold body_len. lia. }
  destruct (bits_of_surj (sig_bytes lg - 41) (encs (crowd lg) ++ repeat false 8)) as (body & Bb & Lb & Eb); [rewrite app_length, LB, repeat_length; lia|].
  set (e := (48 + Z.of_nat lg :: repeat 0 40) ++ body). exists e.
  assert (Le : length e = sig_bytes lg) by (unfold e; rewrite app_length, Lb; cbn [length]; rewrite repeat_length; lia).
  assert (Be : bytes e). { unfold e. apply Forall_app. split; [|exact Bb]. apply Forall_cons; [destruct Hlg as [-> | ->]; split; reflexivity || discriminate|apply P_nttx.Forall_rep; unfold byte; lia]. }
  split; [exact Le|]. split; [exact Be|]. split; [reflexivity|].
  set (L := sig_len lg) in *. assert (LL : sig_bytes lg = L) by reflexivity. rewrite LL in *.
  assert (H28 : forall x, skipn 328 (bits_of (e ++ x)) = concat (map enc (crowd lg)) ++ repeat false 8 ++ bits_of x).
  { intros x. rewrite bits_of_app, skipn_app, bits_of_length, Le. replace (328 - 8 * L)%nat with 0%nat by lia. rewrite skipn_O. unfold e.
    rewrite bits_of_app, skipn_app, (skipn_all2 (bits_of (_ :: _))) by (rewrite bits_of_length; cbn [length]; rewrite repeat_length; lia). rewrite bits_of_length. cbn [length]. rewrite repeat_length. cbn [Nat.mul Nat.add Nat.sub skipn app].
    rewrite Eb, C, <- app_assoc. reflexivity. }
  assert (PRE : forall x (p0 : list Z), bytes x -> (1 <= length x)%nat -> length p0 = (2 ^ lg)%nat -> exists p', length p' = length p0 /\
     decompress_loop (2 ^ lg) L (e ++ x) (8 * Z.of_nat L) (8 + 320) 0 p0 = decompress_loop 1 L (e ++ x) (8 * Z.of_nat L) (Z.of_nat (8 * L - 8)) (2 ^ lg - 1) p').
  { intros x p0 Bx Lx Lp. change (8 + 320) with (Z.of_nat 328). assert (PN : (1 <= 2 ^ lg)%nat) by (apply Nat.neq_0_lt_0, Nat.pow_nonzero; lia).
    destruct (loop_prefix (e ++ x) (8 * Z.of_nat L) L ltac:(apply Forall_app; split; assumption) _ _ F 1 328 0 p0 _ (H28 x)) as (p' & Lp' & E').
    - rewrite app_length, repeat_length. lia.
    - rewrite C, LB. lia.
    - rewrite C, LB. lia.
    - rewrite Lc. lia.
    - exists p'. split; [exact Lp'|]. rewrite Lc, C, LB in E'. replace (2 ^ lg - 1 + 1)%nat with (2 ^ lg)%nat in E' by lia. rewrite E'. f_equal. lia. }
  split.
  - intros b p0 Hb Lp. assert (B1 : bytes [b]) by (apply Forall_cons; [exact Hb|apply Forall_nil]). destruct (PRE [b] p0 B1 (le_n 1) Lp) as (p' & Lp' & E). unfold decompress_sig. fold L. rewrite E. clear E.
    cbn [decompress_loop]. rewrite (proj2 (Z.ltb_lt _ _)) by lia. unfold decompress_coeff.
    rewrite extract8_ok; [|apply Forall_app; split; assumption|lia|rewrite app_length, Le; cbn [length]; replace (Z.of_nat (8 * L - 8)) with (Z.of_nat (L - 1) * 8) by lia; rewrite Z.div_mul by lia; lia].
    cbn [bind]. rewrite extract8_ub; [reflexivity|lia|]. rewrite app_length, Le. cbn [length]. replace (Z.of_nat (8 * L - 8) + 8) with (Z.of_nat L * 8) by lia. rewrite Z.div_mul by lia. lia.
  - intros x p0 Bx Lx Lp. assert (BX : bytes (e ++ x)) by (apply Forall_app; split; assumption).
    destruct (decompress_iff lg (e ++ x) p0 Hlg BX ltac:(fold L; rewrite app_length; lia) Lp) as (b & s & E & E0 & E1 & _). destruct b; [|rewrite E, (E0 eq_refl); reflexivity]. exfalso.
    destruct (PRE x p0 Bx ltac:(lia) Lp) as (p' & Lp' & Q). unfold decompress_sig in E. fold L in E. rewrite Q in E. clear Q. cbn [decompress_loop] in E. rewrite (proj2 (Z.ltb_lt _ _)) in E by lia.
    destruct (coeff_sound L (e ++ x) L (8 * L - 8) BX ltac:(rewrite app_length; lia) (le_n L) ltac:(lia)) as (r & Er & Hr). rewrite Er in E. cbn [bind] in E. destruct r as [[c i']|].
    + destruct Hr as (j & -> & _ & [Hj | (Hj & w & Hw & Ew)]).
      * rewrite wr_Ok in E by lia. cbn [bind] in E. rewrite Z.geb_leb, (proj2 (Z.leb_le _ _)) in E by lia. cbn [orb negb bind] in E.
        apply bind_Ok in E. destruct E as (? & _ & E). discriminate E.
      * apply (f_equal (@length _)) in Ew. rewrite app_length, !skipn_length, dbits_length in Ew by (rewrite app_length; lia). apply codeword_length in Hw. lia.
    + cbn [orb negb bind] in E. apply bind_Ok in E. destruct E as (? & _ & E). discriminate E.
Qed.
Lemma verify_two lg : falcon_lg lg -> exists e, length e = sig_bytes lg /\ bytes e /\
  forall mo fuel xof pk msg h, decode_pkey lg pk (repeat 0 (2 ^ lg)) = Ok (true, h) ->
    (forall b, byte b -> verify mo fuel xof lg pk msg (e ++ [b]) = UB) /\
    (forall x, bytes x -> (2 <= length x)%nat -> verify mo fuel xof lg pk msg (e ++ x) = Ok false).
Proof.
  intros Hlg. destruct (crowded lg Hlg) as (e & Le & Be & E0 & U & V). exists e. split; [exact Le|]. split; [exact Be|]. intros mo fuel xof pk msg h HD.
  assert (HO : Z.lor 48 (Z.of_nat lg) = 48 + Z.of_nat lg) by (destruct Hlg as [-> | ->]; reflexivity).
  assert (D : (41 <= sig_bytes lg)%nat) by (destruct Hlg as [-> | ->]; vm_compute; lia).
  split; [intros b Bb|intros x Bx Lx]; unfold verify; rewrite HD; cbn [bind negb]; unfold verify_h, decode_sig; rewrite (rd_Ok _ 0 0) by (rewrite app_length; lia); cbn [bind]; rewrite app_nth1 by lia;
    rewrite HO, E0, Z.eqb_refl; cbn [negb].
  - rewrite U; [reflexivity|exact Bb|apply repeat_length].
  - rewrite V; [reflexivity|exact Bx|exact Lx|apply repeat_length].
Qed.

Lemma two_needed lg : falcon_lg lg -> exists e, length e = sig_bytes lg /\ bytes e /\
  forall mo fuel xof pk msg, bytes pk -> length pk = pkey_len lg -> nth 0 pk 0 = Z.of_nat lg ->
    (forall b, byte b -> verify mo fuel xof lg pk msg (e ++ [b]) = UB) /\
    (forall x, bytes x -> (2 <= length x)%nat -> verify mo fuel xof lg pk msg (e ++ x) = Ok false).
Proof.
  intros Hlg. destruct (verify_two lg Hlg) as (e & Le & Be & H). exists e. split; [exact Le|]. split; [exact Be|]. intros mo fuel xof pk msg Bp Lp E0.
  destruct (P_keys.pk_back lg pk (repeat 0 (2 ^ lg)) (repeat 0 (pkey_len lg)) Hlg Lp Bp (repeat_length _ _) (repeat_length _ _)) as [_ P2]. destruct (P2 E0) as (h & Eh & _).
  exact (H mo fuel xof pk msg h Eh).
Qed.
