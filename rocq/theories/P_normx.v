(** P_normx.v -- the norm identity in terms of the functions signing calls. *)
From Verif Require Import Base Ring Poly Spec SpecR SpecS M_ff M_xform P_xform M_codec P_codec M_sig M_verify M_float M_exact P_exact M_samp M_fft M_ntru P_ntru M_tree P_tree P_brv P_cplx P_fft P_treex P_gs P_leaf P_sign P_signb P_signx P_signv P_norm.
From Verif Require P_verifyx.
From Coq Require Import Ring_theory Ring Lra.
Open Scope R_scope.

Lemma sigma_nz lg : 0 < sigma_value RF lg.
Proof. unfold sigma_value. destruct (lg =? 10)%nat; unfold flit; cbn; lra. Qed.

Lemma leaves_cells lg (T : list Cx) t : stored RF (2 ^ lg) lg T 0 t ->
  map (fun x : Cx => fst x) (P_tree.leaves RF t) = map (fun j => fst (nth (lg * 2 ^ lg + j) T Czero)) (seq 0 (2 ^ lg)).
Proof.
  intros St. destruct (stored_leaves RF _ _ _ _ _ St) as [LL NL].
  apply (@list_ext R 0); [rewrite !map_length, seq_length; exact LL|]. rewrite map_length. intros i Hi. change (i < @length (D RF * D RF) (P_tree.leaves RF t))%nat in Hi. rewrite LL in Hi.
  rewrite (nth_indep _ 0 (fst Czero)) by (rewrite map_length; change (i < @length (D RF * D RF) (P_tree.leaves RF t))%nat; rewrite LL; exact Hi).
  rewrite (map_nth (fun x : Cx => fst x)).
  rewrite (nth_indep _ 0 (fst (nth (lg * 2 ^ lg + 0) T Czero))) by (rewrite map_length, seq_length; exact Hi).
  rewrite (map_nth (fun j => fst (nth (lg * 2 ^ lg + j) T Czero))). rewrite seq_nth by exact Hi. cbn [plus]. f_equal. symmetry. apply (NL i Hi).
Qed.

Section Key.
Variable lg : nat.
Hypothesis Hlg : (1 <= lg <= 10)%nat.
Variables f g F_ G_ : list Z.
Notation N := (2 ^ lg)%nat.
Hypotheses (Lf : length f = N) (Lg : length g = N) (LF : length F_ = N) (LG : length G_ = N).
Hypothesis HN : ntru N f g F_ G_.
Definition leaf_twice (T : list Cx) : list R := flat_map (fun j => [fst (nth (lg * N + j) T Czero); fst (nth (lg * N + j) T Czero)]) (rev (seq 0 N)).
Lemma twice_cells (T : list Cx) : twice (rev (map (fun j => fst (nth (lg * N + j) T Czero)) (seq 0 N))) = leaf_twice T.
Proof. unfold leaf_twice. rewrite <- map_rev. generalize (rev (seq 0 N)). intros l. unfold twice. induction l as [|x l IH]; [reflexivity|]. cbn. rewrite IH. reflexivity. Qed.

Lemma norm_poly fuel smin rng c B T0 T t0 t1 pos z0 z1 pos' : length c = N -> ((lg + 1) * N <= length T0)%nat ->
  compute_matrix_B RF exact_table lg f g F_ G_ = Ok B -> compute_falcon_tree RF exact_table lg B T0 = Ok T ->
  sign_target RF exact_table lg B c = Ok (t0, t1) ->
  ff_sampling RF exact_table fuel lg 0 t0 t1 T 0 smin rng pos = Ok (z0, z1, pos') ->
  B = Bex lg f g F_ G_ /\ t0 = ft (tp0 lg F_ c) /\ t1 = ft (tp1 lg f c) /\
  exists (a0 a1 : zpv N) cs, z0 = ft (emb a0) /\ z1 = ft (emb a1) /\ length cs = (2 * N)%nat /\ sampler_calls fuel smin rng cs pos pos' /\
    map stddev cs = leaf_twice T /\
    energy cs = / (2 * (sigma_value RF lg * sigma_value RF lg)) * IZR (sqnorm (pl Z N (sv0 lg g G_ c a0 a1)) + sqnorm (pl Z N (sv1 lg f F_ a0 a1))).
Proof.
  intros Lc LT HB HT Ht H. assert (Hlg' : (lg <= 10)%nat) by lia.
  rewrite (matrix_B_ok lg Hlg' f g F_ G_ Lf Lg LF LG) in HB. apply (f_equal (fun r => match r with Ok v => v | _ => [] end)) in HB. cbv beta iota in HB. subst B.
  destruct (tree_ok lg f g F_ G_ T0 Hlg Lf Lg LF LG HN LT) as [T' [E [L St]]].
  pose proof (eq_trans (eq_sym HT) E) as ET. apply (f_equal (fun r => match r with Ok v => v | _ => [] end)) in ET. cbv beta iota in ET. subst T'. clear E.
  rewrite target_ok in Ht by assumption.
  assert (X0 := f_equal (fun r => match r with Ok v => fst v | _ => [] end) Ht). assert (X1 := f_equal (fun r => match r with Ok v => snd v | _ => [] end) Ht).
  cbn [fst snd] in X0, X1. subst t0 t1. clear Ht. split; [reflexivity|]. split; [reflexivity|]. split; [reflexivity|].
  assert (Sn : sigma_value RF lg <> 0) by (assert (X := sigma_nz lg); lra).
  assert (EL := leaves_cells lg T _ St). rewrite <- twice_cells, <- EL. clear EL.
  assert (exists h, lg = S h) as [h Eh] by (exists (lg - 1)%nat; lia).
  revert Sn St H. generalize (sigma_value RF lg). intros sg Sn St H. clear HT L LT. revert Lf Lg LF LG HN Lc St z0 z1 H. rewrite Eh. intros. 
  assert (Hh : (S h <= 10)%nat) by lia.
  exact (root_run h Hh f g F_ G_ Lf Lg LF LG HN fuel smin rng T sg c pos z0 z1 pos' Sn St H).
Qed.

Lemma norm_run fuel smin rng c B T0 T t0 t1 pos z0 z1 pos' s0 s1 n0 n1 : length c = N -> ((lg + 1) * N <= length T0)%nat ->
  compute_matrix_B RF exact_table lg f g F_ G_ = Ok B -> compute_falcon_tree RF exact_table lg B T0 = Ok T ->
  sign_target RF exact_table lg B c = Ok (t0, t1) ->
  ff_sampling RF exact_table fuel lg 0 t0 t1 T 0 smin rng pos = Ok (z0, z1, pos') ->
  sign_vector RF lg B t0 t1 z0 z1 = Ok (s0, s1) -> sqrd_norm_c RF lg s0 = Ok n0 -> sqrd_norm_c RF lg s1 = Ok n1 ->
  exists cs, length cs = (2 * N)%nat /\ sampler_calls fuel smin rng cs pos pos' /\ map stddev cs = leaf_twice T /\
    energy cs = (n0 + n1) / (2 * (sigma_value RF lg * sigma_value RF lg)).
Proof.
  intros Lc LT HB HT Ht H E2 E3 E4. assert (Hlg' : (lg <= 10)%nat) by lia.
  destruct (norm_poly fuel smin rng c B T0 T t0 t1 pos z0 z1 pos' Lc LT HB HT Ht H) as [-> [-> [-> [a0 [a1 [cs [-> [-> [Lcs [Cs [Ds En]]]]]]]]]]].
  exists cs. split; [exact Lcs|]. split; [exact Cs|]. split; [exact Ds|]. rewrite En.
  rewrite vector_ok in E2 by assumption.
  assert (S0 := f_equal (fun r => match r with Ok v => fst v | _ => [] end) E2). assert (S1 := f_equal (fun r => match r with Ok v => snd v | _ => [] end) E2).
  cbn [fst snd] in S0, S1. subst s0 s1. clear E2.
  rewrite sqnorm_emb in E3, E4. apply (f_equal (fun r => match r with Ok v => v | _ => 0 end)) in E3. apply (f_equal (fun r => match r with Ok v => v | _ => 0 end)) in E4. cbv beta iota in E3, E4. subst n0 n1.
  rewrite plus_IZR. unfold Rdiv. ring.
Qed.
End Key.

Lemma leaf_twice_in lg T x : In x (leaf_twice lg T) -> exists j, (j < 2 ^ lg)%nat /\ x = fst (nth (lg * 2 ^ lg + j) T Czero).
Proof.
  unfold leaf_twice. rewrite in_flat_map. intros [j [Hj Hx]]. apply in_rev, in_seq in Hj. exists j. split; [lia|].
  cbn [In] in Hx. destruct Hx as [Hx|[Hx|[]]]; symmetry; exact Hx.
Qed.
Lemma sign_energy lg : falcon_lg lg -> forall f g F_ G_ : list Z,
  length f = (2 ^ lg)%nat -> length g = (2 ^ lg)%nat -> length F_ = (2 ^ lg)%nat -> length G_ = (2 ^ lg)%nat -> ntru (2 ^ lg) f g F_ G_ ->
  forall xof, (forall a, byte_stream (xof a)) -> forall fuel sfuel B T0 T msg sig rng pos sig' pos', (sig_bytes lg <= length sig)%nat -> ((lg + 1) * 2 ^ lg = length T0)%nat ->
  compute_matrix_B RF exact_table lg f g F_ G_ = Ok B -> compute_falcon_tree RF exact_table lg B T0 = Ok T ->
  sign_bt RF exact_table fuel sfuel xof lg B T msg sig rng pos = Ok (sig', pos') ->
  let N := (2 ^ lg)%nat in
  let salt := map (fun i => rng (pos + i)%nat) (seq 0 40) in
  exists c z0 z1 s1 s2 body p cs, hashed (xof (salt ++ msg)) lg c /\ length z0 = N /\ length z1 = N /\
    s1 = psub N (psub N c (negacyclic N z0 g)) (negacyclic N z1 G_) /\ s2 = padd N (negacyclic N z0 f) (negacyclic N z1 F_) /\
    bits_of body = encs s2 ++ repeat false (Z.to_nat (body_len lg - tot s2)) /\ length body = (sig_bytes lg - 41)%nat /\
    sig' = ((48 + Z.of_nat lg)%Z :: salt) ++ body ++ skipn (sig_bytes lg) sig /\
    length cs = (2 * N)%nat /\ sampler_calls sfuel (sigma_min RF lg) rng cs p pos' /\
    energy cs = IZR (sqnorm s1 + sqnorm s2) / (2 * (sigma_value RF lg * sigma_value RF lg)) /\
    energy cs <= IZR (beta2 lg) / (2 * (sigma_value RF lg * sigma_value RF lg)) /\
    (gs_norm lg f g <= 117 / 100 * (117 / 100) * 12289 -> Forall (fun c => leaf_lo lg <= stddev c <= leaf_hi lg) cs).
Proof.
  intros Hlg f g F_ G_ Lf Lg LF LG HN xof Hx fuel sfuel B T0 T msg sig rng pos sig' pos' Ls LT HB HT H N salt.
  assert (lg10 : (1 <= lg <= 10)%nat) by (destruct Hlg as [->| ->]; lia). assert (lg10' : (lg <= 10)%nat) by lia.
  destruct (sign_layout _ _ _ _ _ _ _ _ _ _ _ _ _ _ Hlg Ls H) as (c & t0 & t1 & s2 & body & H1 & H2 & A & L2 & Lb & Bb & Tt & Kb & E). fold salt in H1, E.
  assert (Hc := P_verifyx.hash_hashed sfuel xof lg salt msg _ c (Hx _) (repeat_length _ _) H1).
  assert (Lc : length c = N) by apply (P_verifyx.hashed_facts _ _ _ Hc).
  destruct A as (p & z0 & z1 & s0 & s1 & n0 & n1 & s1' & E1 & E2 & E3 & E4 & E5 & E6 & E7).
  destruct (norm_poly lg lg10 f g F_ G_ Lf Lg LF LG HN sfuel _ rng c B T0 T t0 t1 p z0 z1 pos' Lc ltac:(lia) HB HT H2 E1) as [-> [-> [-> [a0 [a1 [cs [-> [-> [Lcs [Cs [Ds En]]]]]]]]]]].
  rewrite vector_ok in E2 by assumption.
  assert (S0 := f_equal (fun r => match r with Ok v => fst v | _ => [] end) E2). assert (S1 := f_equal (fun r => match r with Ok v => snd v | _ => [] end) E2).
  cbn [fst snd] in S0, S1. subst s0 s1. clear E2.
  set (w0 := sv0 lg g G_ c a0 a1) in *. set (w1 := sv1 lg f F_ a0 a1) in *.
  rewrite sqnorm_emb in E3, E4. apply (f_equal (fun r => match r with Ok v => v | _ => 0 end)) in E3. apply (f_equal (fun r => match r with Ok v => v | _ => 0 end)) in E4. cbv beta iota in E3, E4. subst n0 n1.
  assert (E5' : (sqnorm (pl Z _ w0) + sqnorm (pl Z _ w1) <= beta2 lg)%Z).
  { cbn in E5. revert E5. destruct (Rle_dec _ _) as [K|]; [|discriminate]. intros _. rewrite <- plus_IZR in K. apply le_IZR in K. exact K. }
  rewrite ifft_ok in E6 by exact lg10'. apply (f_equal (fun r => match r with Ok v => v | _ => [] end)) in E6. cbv beta iota in E6. subst s1'.
  assert (Bb2 : (beta2 lg <= 1000000000)%Z) by (destruct Hlg as [->| ->]; vm_compute; congruence).
  rewrite round_ok in E7; [|apply repeat_length|rewrite Forall_forall; intros x Hin; assert (X := sqnorm_coeff _ _ Hin); assert (Y := sqnorm_pos (pl Z (2 ^ lg) w0)); nia].
  apply (f_equal (fun r => match r with Ok v => v | _ => [] end)) in E7. cbv beta iota in E7. subst s2.
  assert (Ew1 : pl Z N w1 = Spec.padd N (negacyclic N (pl Z N a0) f) (negacyclic N (pl Z N a1) F_)).
  { unfold w1, sv1. rewrite pl_padd, !negacyclic_zmul, !ofl_pl. reflexivity. }
  assert (Ew0 : pl Z N w0 = Spec.psub N (Spec.psub N c (negacyclic N (pl Z N a0) g)) (negacyclic N (pl Z N a1) G_)).
  { unfold w0, sv0. rewrite !pl_psub, !negacyclic_zmul, !ofl_pl, pl_ofl by exact Lc. reflexivity. }
  assert (Ps := sigma_nz lg). assert (Pss : 0 < 2 * (sigma_value RF lg * sigma_value RF lg)) by (apply Rmult_lt_0_compat; [lra|apply Rmult_lt_0_compat; exact Ps]).
  exists c, (pl Z N a0), (pl Z N a1), (pl Z N w0), (pl Z N w1), body, p, cs.
  split; [exact Hc|]. split; [apply pl_length|]. split; [apply pl_length|]. split; [exact Ew0|]. split; [exact Ew1|]. split; [exact Kb|]. split; [exact Lb|]. split; [exact E|].
  split; [exact Lcs|]. split; [exact Cs|].
  assert (En' : energy cs = IZR (sqnorm (pl Z N w0) + sqnorm (pl Z N w1)) / (2 * (sigma_value RF lg * sigma_value RF lg))) by (rewrite En; unfold Rdiv; apply Rmult_comm).
  split; [exact En'|]. split.
  - rewrite En'. apply Rmult_le_compat_r; [left; apply Rinv_0_lt_compat; exact Pss|]. apply IZR_le. exact E5'.
  - intros Hg. destruct (short_leaves lg f g F_ G_ T0 Hlg Lf Lg LF LG HN Hg ltac:(symmetry; exact LT)) as [B' [T' [EB' [ET' [_ R]]]]].
    assert (XB := eq_trans (eq_sym HB) EB'). apply (f_equal (fun r => match r with Ok v => v | _ => [] end)) in XB. cbv beta iota in XB. subst B'.
    assert (XT := eq_trans (eq_sym HT) ET'). apply (f_equal (fun r => match r with Ok v => v | _ => [] end)) in XT. cbv beta iota in XT. subst T'.
    rewrite Forall_forall. intros k Hk. assert (I : In (stddev k) (leaf_twice lg T)) by (rewrite <- Ds; apply in_map; exact Hk).
    apply leaf_twice_in in I. destruct I as [j [Hj ->]]. apply R. exact Hj.
Qed.
