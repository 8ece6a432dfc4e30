(** P_verify.v -- hash-to-point and verification *)
From Verif Require Import Base Ring Spec M_ff P_ff M_xform P_xform P_xring Zq P_brv M_ntt P_ntt P_nttx
  M_codec M_sig M_verify P_codec P_keys P_sig P_comp P_decomp P_sigx.
Open Scope Z_scope.
Add Ring ZQ : zq_ring.

(** ** hash_to_point *)
Lemma kq_val : kq = 61445.
Proof. reflexivity. Qed.

Definition bword (buf : list Z) (j : nat) : Z := 256 * nth (2 * j) buf 0 + nth (2 * j + 1) buf 0.
Definition keepw (l : list Z) : list Z := filter (fun w => w <? 61445) l.

Lemma keepw_app a b : keepw (a ++ b) = keepw a ++ keepw b.
Proof. apply filter_app. Qed.

Lemma word_ok b0 b1 : byte b0 -> byte b1 -> u16 (Z.lor (Z.shiftl b0 8) (Z.shiftl b1 0)) = 256 * b0 + b1.
Proof.
  unfold byte. intros H0 H1. rewrite Z.shiftl_0_r, lor_add by (try lia; change (2 ^ 8) with 256; lia).
  unfold u16. change (2 ^ 8) with 256. rewrite Z.mod_small; lia.
Qed.

Lemma upd_app_len {A} (a b : list A) x v : upd (a ++ x :: b) (length a) v = (a ++ [v]) ++ b.
Proof. rewrite upd_split by (rewrite app_length; simpl; lia). rewrite firstn_lead by reflexivity.
  replace (S (length a)) with (length (a ++ [x])) by (rewrite app_length; simpl; lia).
  replace (a ++ x :: b) with ((a ++ [x]) ++ b) by (rewrite <- app_assoc; reflexivity).
  rewrite skipn_lead by reflexivity. rewrite <- app_assoc. reflexivity. Qed.

Lemma hash_block_ok n buf : bytes buf -> forall k j dn junk, (2 * (j + k) <= length buf)%nat -> (length dn + length junk = n)%nat ->
  exists junk', let dn' := firstn n (dn ++ modq (keepw (map (bword buf) (seq j k)))) in
    hash_block k j n buf (dn ++ junk) (length dn) = Ok (dn' ++ junk', length dn') /\ (length dn' + length junk' = n)%nat.
Proof.
  intros Hb. induction k as [|k IH]; intros j dn junk Hl Hn; cbn [hash_block seq map].
  - exists junk. cbn [keepw filter modq map]. rewrite app_nil_r, firstn_all2 by lia. split; [reflexivity|exact Hn].
  - destruct (Nat.ltb_spec (length dn) n) as [Lt|Ge].
    + rewrite (rd_Ok buf (2 * j) 0), (rd_Ok buf (2 * j + 1) 0) by lia. cbn [bind].
      rewrite word_ok by (apply Forall_nth_lt; [exact Hb|lia]). fold (bword buf j). rewrite kq_val.
      unfold keepw. cbn [filter]. fold (keepw (map (bword buf) (seq (S j) k))).
      destruct (Z.ltb_spec (bword buf j) 61445) as [Lw|Gw].
      * destruct junk as [|x junk]; [simpl in Hn; lia|].
        rewrite wr_Ok by (rewrite app_length; simpl; lia). cbn [bind]. rewrite upd_app_len.
        destruct (IH (S j) (dn ++ [ff (bword buf j)]) junk) as (junk' & E & L); [lia|rewrite app_length; simpl in *; lia|].
        rewrite app_length in E. cbn [length] in E. replace (length dn + 1)%nat with (S (length dn)) in E by lia.
        assert (B : 0 <= bword buf j < 65536).
        { unfold bword. pose proof (Forall_nth_lt _ buf 0 (2 * j) Hb ltac:(lia)). pose proof (Forall_nth_lt _ buf 0 (2 * j + 1) Hb ltac:(lia)). unfold byte in *. lia. }
        rewrite ff_correct in E, L |- * by exact B. rewrite <- (app_assoc dn _ (modq _)) in E, L. exists junk'. split; [exact E|exact L].
      * destruct (IH (S j) dn junk) as (junk' & E & L); [lia|exact Hn|]. exists junk'. split; [exact E|exact L].
    + exists junk. assert (J : junk = []) by (destruct junk; [reflexivity|simpl in Hn; lia]). subst junk.
      cbv zeta. rewrite firstn_app. replace (n - length dn)%nat with 0%nat by lia. rewrite firstn_O, firstn_all2, !app_nil_r by lia.
      split; [reflexivity|exact Hn].
Qed.

Lemma modq_app a b : modq (a ++ b) = modq a ++ modq b.
Proof. apply map_app. Qed.


Lemma accepted_split s n m : accepted_words s (n + m) = accepted_words s n ++ keepw (map (word16 s) (seq n m)).
Proof. unfold accepted_words, keepw. rewrite seq_app, map_app, filter_app. reflexivity. Qed.

Lemma bword_block s blk j : (j < 68)%nat ->
  bword (map (fun i => s (136 * blk + i)%nat) (seq 0 136)) j = word16 s (68 * blk + j).
Proof.
  intros Hj. unfold bword, word16.
  assert (G : forall k, (k < 136)%nat -> nth k (map (fun i => s (136 * blk + i)%nat) (seq 0 136)) 0 = s (136 * blk + k)%nat).
  { intros k Hk. rewrite (nth_indep _ 0 (s (136 * blk + 0)%nat)) by (rewrite map_length, seq_length; exact Hk).
    rewrite (map_nth (fun i => s (136 * blk + i)%nat)). rewrite seq_nth by exact Hk. reflexivity. }
  rewrite !G by lia. replace (2 * (68 * blk + j))%nat with (136 * blk + 2 * j)%nat by lia. rewrite <- Nat.add_assoc. reflexivity.
Qed.

Lemma block_words s blk : map (bword (map (fun i => s (136 * blk + i)%nat) (seq 0 136))) (seq 0 68) = map (word16 s) (seq (68 * blk) 68).
Proof.
  apply (list_ext 0); rewrite !map_length, !seq_length; [reflexivity|]. intros j Hj.
  rewrite (nth_indep _ 0 (bword (map (fun i => s (136 * blk + i)%nat) (seq 0 136)) 0)) by (rewrite map_length, seq_length; exact Hj).
  rewrite map_nth. rewrite (nth_indep _ 0 (word16 s 0)) by (rewrite map_length, seq_length; exact Hj). rewrite map_nth, !seq_nth by exact Hj.
  apply bword_block. exact Hj.
Qed.

Lemma hash_loop_ok s n : byte_stream s -> forall fuel blk dn junk,
  dn = firstn n (modq (accepted_words s (68 * blk))) -> (length dn + length junk = n)%nat ->
  hash_loop fuel s blk n (dn ++ junk) (length dn) =
  if Nat.leb n (length (accepted_words s (68 * (blk + fuel)))) then Ok (firstn n (modq (accepted_words s (68 * (blk + fuel))))) else Fuel.
Proof.
  intros Hs. induction fuel as [|fuel IH]; intros blk dn junk Hd Hn; cbn [hash_loop].
  - rewrite Nat.add_0_r. pose proof (f_equal (@length _) Hd) as Ld. rewrite firstn_length, modq_length in Ld.
    destruct (Nat.ltb_spec (length dn) n) as [Lt|Ge].
    + rewrite (proj2 (Nat.leb_gt _ _)) by lia. reflexivity.
    + rewrite (proj2 (Nat.leb_le _ _)) by lia. destruct junk; [|simpl in Hn; lia]. rewrite app_nil_r, Hd. reflexivity.
  - pose proof (f_equal (@length _) Hd) as Ld. rewrite firstn_length, modq_length in Ld.
    destruct (Nat.ltb_spec (length dn) n) as [Lt|Ge].
    + change rate_bytes with 136%nat. change (136 / 2)%nat with 68%nat.
      set (buf := map (fun i => s (136 * blk + i)%nat) (seq 0 136)).
      assert (Bb : bytes buf) by (apply Forall_forall; intros x Hx; apply in_map_iff in Hx; destruct Hx as (i & <- & _); apply Hs).
      assert (Lb : length buf = 136%nat) by (unfold buf; rewrite map_length, seq_length; reflexivity).
      destruct (hash_block_ok n buf Bb 68 0 dn junk) as (junk' & E & L); [lia|exact Hn|].
      cbv zeta in E, L. rewrite E. cbn [bind]. unfold buf in E, L |- *. rewrite block_words in *.
      rewrite (IH (S blk)).
      * replace (S blk + fuel)%nat with (blk + S fuel)%nat by lia. reflexivity.
      * replace (68 * S blk)%nat with (68 * blk + 68)%nat by lia. rewrite accepted_split, modq_app. rewrite !firstn_app. f_equal.
        -- rewrite Hd at 1. rewrite firstn_firstn. f_equal. lia.
        -- f_equal. rewrite modq_length. rewrite Hd, firstn_length, modq_length. lia.
      * exact L.
    + destruct junk; [|simpl in Hn; lia]. rewrite app_nil_r.
      replace (68 * (blk + S fuel))%nat with (68 * blk + 68 * S fuel)%nat by lia. rewrite accepted_split, app_length.
      rewrite (proj2 (Nat.leb_le _ _)) by lia. rewrite modq_app, firstn_app, modq_length.
      replace (n - length (accepted_words s (68 * blk)))%nat with 0%nat by lia. rewrite firstn_O, app_nil_r, Hd. reflexivity.
Qed.

Lemma hash_ok fuel xof lg salt msg poly : byte_stream (xof (salt ++ msg)) -> length poly = (2 ^ lg)%nat ->
  hash_to_point fuel xof lg salt msg poly =
  if Nat.leb (2 ^ lg) (length (accepted_words (xof (salt ++ msg)) (68 * fuel)))
  then Ok (firstn (2 ^ lg) (modq (accepted_words (xof (salt ++ msg)) (68 * fuel)))) else Fuel.
Proof.
  intros Hs L. unfold hash_to_point.
  apply (hash_loop_ok (xof (salt ++ msg)) (2 ^ lg) Hs fuel 0 [] poly); [rewrite Nat.mul_0_r; cbn; rewrite firstn_nil; reflexivity|exact L].
Qed.

Lemma hash_result fuel xof lg salt msg poly c : byte_stream (xof (salt ++ msg)) -> length poly = (2 ^ lg)%nat ->
  hash_to_point fuel xof lg salt msg poly = Ok c -> length c = (2 ^ lg)%nat /\ Forall canon c.
Proof.
  intros Hs L H. rewrite hash_ok in H by assumption. destruct (Nat.leb_spec (2 ^ lg) (length (accepted_words (xof (salt ++ msg)) (68 * fuel)))); [|discriminate].
  assert (E : c = firstn (2 ^ lg) (modq (accepted_words (xof (salt ++ msg)) (68 * fuel)))) by congruence. subst c.
  split; [rewrite firstn_length, modq_length; lia|]. 
  pose proof (modq_canon (accepted_words (xof (salt ++ msg)) (68 * fuel))) as M.
  rewrite <- (firstn_skipn (2 ^ lg) (modq _)) in M. apply Forall_app in M. apply M.
Qed.

(** ** linearity of evaluation *)
Lemma ev_sub lg (a b : nat -> Z) p :
  ev lg (tab (2 ^ lg) (fun i => (a i - b i) mod q)) p = qsub (ev lg (tab (2 ^ lg) a) p) (ev lg (tab (2 ^ lg) b) p).
Proof.
  unfold ev, reval. rewrite <- (rsum_sub _ _ _ _ _ _ _ zq_ring). apply rsum_ext. intros i Hi. rewrite !nth_tab by exact Hi.
  rewrite toq_mod, toq_sub. ring.
Qed.
Lemma ev_tab lg a p : length a = (2 ^ lg)%nat -> ev lg (tab (2 ^ lg) (fun i => nth i a 0)) p = ev lg a p.
Proof. intros L. apply ev_ext. intros i Hi. rewrite nth_tab by exact Hi. reflexivity. Qed.

Lemma poly_add_to_ok lg a b : length a = (2 ^ lg)%nat -> length b = (2 ^ lg)%nat ->
  poly_add_to lg a b = Ok (tab (2 ^ lg) (fun i => ff_addc (nth i a 0) (nth i b 0))).
Proof.
  intros La Lb. unfold poly_add_to.
  destruct (forn_inv (fun i s => length s = (2 ^ lg)%nat /\ forall p, nth p s 0 = if Nat.ltb p i then ff_addc (nth p a 0) (nth p b 0) else nth p a 0)
     (2 ^ lg) 0 (fun i v => x <- rd v i ;; y <- rd b i ;; wr v i (ff_addc x y)) a) as (s & E & L & H).
  - split; [exact La|]. intros p. reflexivity.
  - intros j t Hj [Lt H]. rewrite (rd_Ok t j 0), (rd_Ok b j 0) by lia. cbn [bind]. rewrite wr_Ok by lia.
    eexists. split; [reflexivity|]. split; [rewrite upd_length; exact Lt|]. intros p. rewrite nth_upd by lia.
    destruct (Nat.eqb_spec p j) as [->|Ne].
    + rewrite (proj2 (Nat.ltb_lt _ _)) by lia. rewrite H, Nat.ltb_irrefl. reflexivity.
    + rewrite H. destruct (Nat.ltb_spec p j), (Nat.ltb_spec p (S j)); try lia; reflexivity.
  - rewrite E. f_equal. apply (list_ext 0); [rewrite tab_length; exact L|]. intros i Hi. rewrite L in Hi.
    rewrite nth_tab by exact Hi. rewrite H. rewrite (proj2 (Nat.ltb_lt _ _)) by lia. reflexivity.
Qed.

Lemma s1_pipeline lg c s2 h : falcon_lg lg -> length c = (2 ^ lg)%nat -> length s2 = (2 ^ lg)%nat -> length h = (2 ^ lg)%nat ->
  Forall canon c -> Forall lt14 h ->
  (c <- ntt lg c ;; s2_ntt <- ntt lg (modq s2) ;; h_ <- ntt lg h ;;
   s1 <- poly_mul lg s2_ntt h_ (repeat 0 (2 ^ lg)%nat) ;; s1 <- poly_neg lg s1 ;; s1 <- poly_add_to lg s1 c ;; intt lg s1)
  = Ok (s1_residues lg c s2 h).
Proof.
  intros Hlg Lc Ls Lh Cc Hh.
  destruct (ntt_ev lg c Hlg Lc Cc) as (yc & -> & Lyc & Cyc & Pc). cbn [bind].
  destruct (ntt_ev lg (modq s2) Hlg) as (ys & -> & Lys & Cys & Ps); [rewrite modq_length; exact Ls|apply modq_canon|]. cbn [bind].
  destruct (ntt_ok lg h Hlg Lh Hh) as (yh & -> & Lyh & Vyh & _ & Ph). cbn [bind].
  rewrite poly_mul_ok by (try assumption; apply repeat_length). cbn [bind].
  unfold poly_neg. rewrite mapw_ok by (rewrite tab_length; reflexivity). cbn [bind].
  set (m := map ff_neg _).
  assert (Lm : length m = (2 ^ lg)%nat) by (unfold m; rewrite map_length, tab_length; reflexivity).
  assert (Hm : forall i, (i < 2 ^ lg)%nat -> canon (nth i m 0) /\ toq (nth i m 0) = qopp (qmul (ev lg s2 i) (ev lg h i))).
  { intros i Hi. unfold m. rewrite (nth_indep _ 0 (ff_neg 0)) by (rewrite map_length, tab_length; exact Hi). rewrite map_nth, nth_tab by exact Hi.
    assert (V1 : lt14 (nth i ys 0)) by (apply canon_lt14, (canon_forall_nth ys _ Lys Cys i Hi)).
    assert (V2 : lt14 (nth i yh 0)) by (apply Forall_nth_lt; [exact Vyh|lia]).
    assert (C : canon (ff_mul (nth i ys 0) (nth i yh 0))) by (apply ff_mul_canon; assumption).
    split; [apply ff_neg_canon; exact C|]. rewrite ff_neg_correct by exact C. rewrite toq_mod, toq_opp, ff_mul_correct by assumption.
    rewrite toq_mod, toq_mul, Ps, Ph, ev_modq by exact Hi. reflexivity. }
  rewrite poly_add_to_ok by assumption. cbn [bind]. set (y := tab _ _).
  assert (Ly : length y = (2 ^ lg)%nat) by apply tab_length.
  assert (Cy : Forall canon y).
  { apply Forall_nth_intro with (d := 0). rewrite Ly. intros i Hi. unfold y. rewrite nth_tab by exact Hi.
    rewrite ff_addc_correct; [apply mod_canon|apply Hm; exact Hi|apply (canon_forall_nth yc _ Lyc Cyc i Hi)]. }
  destruct (ev_surj lg y Hlg Ly Cy) as (a & -> & La & Ca & Pa). f_equal.
  assert (Ls1 : length (s1_residues lg c s2 h) = (2 ^ lg)%nat) by apply tab_length.
  assert (Cs1 : Forall canon (s1_residues lg c s2 h)).
  { apply Forall_nth_intro with (d := 0). rewrite Ls1. intros i Hi. unfold s1_residues. rewrite nth_tab by exact Hi. apply mod_canon. }
  assert (MC : forall l, Forall canon l -> modq l = l).
  { intros l Hl. unfold modq. rewrite <- (map_id l) at 2. apply map_ext_in. intros x Hx. apply Z.mod_small. rewrite Forall_forall in Hl. apply Hl, Hx. }
  rewrite <- (MC a Ca), <- (MC _ Cs1). apply (ev_inj lg); auto. intros p Hp. rewrite Pa by exact Hp.
  unfold y. rewrite nth_tab by exact Hp.
  rewrite ff_addc_correct; [|apply Hm; exact Hp|apply (canon_forall_nth yc _ Lyc Cyc p Hp)].
  rewrite toq_mod, toq_add, Pc by exact Hp. rewrite (proj2 (Hm p Hp)).
  unfold s1_residues. rewrite ev_sub, !ev_tab by (try exact Lc; apply negacyclic_length).
  rewrite ev_mul by exact Hlg. ring.
Qed.

(** ** the norm *)
Lemma sqnorm_nonneg l : 0 <= sqnorm l.
Proof. unfold sqnorm. induction l as [|x l IH]; simpl; [lia|]. pose proof (Z.square_nonneg x). lia. Qed.
Lemma sqnorm_cons x l : sqnorm (x :: l) = x * x + sqnorm l.
Proof. reflexivity. Qed.

Definition sq_ok (x : Z) : Prop := Z.abs x <= 46340.
Lemma sq_bound x : sq_ok x -> 0 <= x * x < 2147483648.
Proof. unfold sq_ok. intros H. pose proof (Z.abs_square x). nia. Qed.

Lemma s32_in m x : - 2147483648 <= x < 2147483648 -> s32 m x = Ok x.
Proof. intros H. unfold s32. rewrite (proj2 (Z.leb_le _ _)), (proj2 (Z.ltb_lt _ _)) by lia. reflexivity. Qed.
Lemma s32_strict_out x : 2147483648 <= x -> s32 Strict x = UB.
Proof. intros H. unfold s32. rewrite (proj2 (Z.ltb_ge _ _)) by lia. rewrite andb_false_r. reflexivity. Qed.
Lemma s32_wrap x : s32 Wrap x = Ok (i32 x).
Proof. unfold s32. destruct (_ && _) eqn:E; [|reflexivity]. rewrite i32_id by lia. reflexivity. Qed.
Lemma i32_add x y : i32 (i32 x + y) = i32 (x + y).
Proof.
  unfold i32. f_equal. replace ((x + 2147483648) mod 4294967296 - 2147483648 + y + 2147483648) with ((x + 2147483648) mod 4294967296 + y) by ring.
  rewrite Zplus_mod_idemp_l. f_equal. ring.
Qed.

Lemma acc_sq_strict a s : Forall sq_ok a -> 0 <= s < 2147483648 ->
  acc_sq Strict (length a) a s = if s + sqnorm a <? 2147483648 then Ok (s + sqnorm a) else UB.
Proof.
  intros Ha. unfold acc_sq. rewrite (forn_mfold (fun x s => p <- s32 Strict (x * x) ;; s32 Strict (s + p)) a []).
  revert s. induction Ha as [|x a Hx Ha IH]; intros s Hs; cbn [mfold].
  - change (sqnorm []) with 0. rewrite Z.add_0_r, (proj2 (Z.ltb_lt _ _)) by lia. reflexivity.
  - pose proof (sq_bound x Hx). pose proof (sqnorm_nonneg a). rewrite sqnorm_cons. rewrite s32_in by lia. cbn [bind].
    destruct (Z_lt_ge_dec (s + x * x) 2147483648) as [L|G].
    + rewrite s32_in by lia. cbn [bind]. rewrite IH by lia. rewrite Z.add_assoc. reflexivity.
    + rewrite s32_strict_out by lia. cbn [bind]. rewrite (proj2 (Z.ltb_ge _ _)) by lia. reflexivity.
Qed.

Lemma acc_sq_wrap a s : Forall sq_ok a -> acc_sq Wrap (length a) a (i32 s) = Ok (i32 (s + sqnorm a)).
Proof.
  intros Ha. unfold acc_sq. rewrite (forn_mfold (fun x s => p <- s32 Wrap (x * x) ;; s32 Wrap (s + p)) a []).
  revert s. induction Ha as [|x a Hx Ha IH]; intros s; cbn [mfold].
  - change (sqnorm []) with 0. rewrite Z.add_0_r. reflexivity.
  - pose proof (sq_bound x Hx). rewrite s32_in by lia. cbn [bind]. rewrite s32_wrap, i32_add. cbn [bind]. rewrite IH.
    rewrite sqnorm_cons, Z.add_assoc. reflexivity.
Qed.

Lemma normalize_lift v : canon v -> normalize v = lift v.
Proof. unfold canon, normalize, lift, qby2, Q, q. intros H. change (12289 / 2) with 6144. rewrite Z.geb_leb. destruct (Z.leb_spec 6144 v), (Z.ltb_spec v 6144); cbn [b2z]; lia. Qed.
Lemma lift_range v : canon v -> -6145 <= lift v <= 6143.
Proof. unfold canon, lift, q. intros H. destruct (Z.ltb_spec v 6144); lia. Qed.

(** ** verify_h *)
Lemma verify_h_ok m fuel xof lg b2 h msg sig : falcon_lg lg -> (forall a, byte_stream (xof a)) ->
  bytes sig -> (sig_bytes lg + 2 <= length sig)%nat -> length h = (2 ^ lg)%nat -> Forall lt14 h ->
  (nth 0 sig 0 <> 48 + Z.of_nat lg -> verify_h m fuel xof lg b2 h msg sig = Ok false) /\
  ((forall s, ~ accepts lg sig s) -> verify_h m fuel xof lg b2 h msg sig = Ok false) /\
  (forall s2, nth 0 sig 0 = 48 + Z.of_nat lg -> accepts lg sig s2 ->
    verify_h m fuel xof lg b2 h msg sig =
    (c <- hash_to_point fuel xof lg (firstn 40 (skipn 1 sig)) msg (repeat 0 (2 ^ lg)%nat) ;;
     match m with
     | Strict => if vnorm lg c s2 h <? 2147483648 then Ok (vnorm lg c s2 h <=? b2) else UB
     | Wrap => Ok (i32 (vnorm lg c s2 h) <=? b2)
     end)).
Proof.
  intros Hlg Hx Hb L Lh Hh. unfold verify_h.
  destruct (decode_sig_ok lg sig (repeat 0 40%nat) (repeat 0 (2 ^ lg)%nat) Hlg Hb L (repeat_length _ _) (repeat_length _ _)) as (b & salt & s & -> & Lsv & Lsalt & A1 & A2).
  cbn [bind]. destruct b; cbn [negb].
  2: { split; [reflexivity|]. split; [reflexivity|]. intros s2 H0 A. destruct (A2 s2 H0 A). discriminate. }
  destruct (A1 eq_refl) as (H0 & Esalt & A). split; [contradiction|]. split; [intros N; exfalso; apply (N s A)|].
  intros s2 _ B. destruct (A2 s2 H0 B) as [_ <-]. pose proof (accepts_bound lg sig s A) as Bd.
  rewrite to_ff_poly_ok; [|exact Lsv|apply repeat_length|eapply Forall_impl; [|exact Bd]; unfold smallq, q; intros; lia].
  cbn [bind]. rewrite Esalt. rewrite Esalt in Lsalt.
  destruct (hash_to_point fuel xof lg _ msg _) as [c| |] eqn:EH; cbn [bind]; [|reflexivity|reflexivity].
  destruct (hash_result _ _ _ _ _ _ _ (Hx _) (repeat_length _ _) EH) as [Lc Cc].
  pose proof (s1_pipeline lg c s h Hlg Lc Lsv Lh Cc Hh) as P.
  destruct (ntt lg c) as [yc| |]; cbn [bind] in *; [|discriminate|discriminate].
  destruct (ntt lg (modq s)) as [ys| |]; cbn [bind] in *; [|discriminate|discriminate].
  destruct (ntt lg h) as [yh| |]; cbn [bind] in *; [|discriminate|discriminate].
  destruct (poly_mul lg ys yh _) as [t1| |]; cbn [bind] in *; [|discriminate|discriminate].
  destruct (poly_neg lg t1) as [t2| |]; cbn [bind] in *; [|discriminate|discriminate].
  destruct (poly_add_to lg t2 yc) as [t3| |]; cbn [bind] in *; [|discriminate|discriminate].
  rewrite P. cbn [bind].
  set (r := s1_residues lg c s h). assert (Lr : length r = (2 ^ lg)%nat) by apply tab_length.
  assert (Cr : Forall canon r).
  { apply Forall_nth_intro with (d := 0). rewrite Lr. intros i Hi. unfold r, s1_residues. rewrite nth_tab by exact Hi. apply mod_canon. }
  rewrite (fill_ok normalize) by (rewrite ?repeat_length; auto). cbn [bind].
  assert (EN : map normalize r = map lift r).
  { apply map_ext_in. intros x Hx'. apply normalize_lift. rewrite Forall_forall in Cr. apply Cr, Hx'. }
  rewrite EN. unfold vnorm. fold r.
  assert (S2 : Forall sq_ok s) by (eapply Forall_impl; [|exact Bd]; unfold sq_ok; intros; lia).
  assert (S1 : Forall sq_ok (map lift r)).
  { apply Forall_map. eapply Forall_impl; [|exact Cr]. intros x Hx'. pose proof (lift_range x Hx'). unfold sq_ok. lia. }
  pose proof (sqnorm_nonneg s) as N2. pose proof (sqnorm_nonneg (map lift r)) as N1.
  assert (Lm : length (map lift r) = (2 ^ lg)%nat) by (rewrite map_length; exact Lr).
  destruct m.
  - rewrite <- Lsv at 1. rewrite acc_sq_strict by (try assumption; lia). rewrite Z.add_0_l.
    destruct (Z.ltb_spec (sqnorm s) 2147483648) as [L1|G1]; cbn [bind].
    + rewrite <- Lm. rewrite acc_sq_strict by (try assumption; lia).
      destruct (Z.ltb_spec (sqnorm s + sqnorm (map lift r)) 2147483648); reflexivity.
    + rewrite (proj2 (Z.ltb_ge _ _)) by lia. reflexivity.
  - rewrite <- Lsv at 1. change 0 with (i32 0) at 1. rewrite acc_sq_wrap by assumption. cbn [bind]. rewrite Z.add_0_l.
    rewrite <- Lm, acc_sq_wrap by assumption. reflexivity.
Qed.
