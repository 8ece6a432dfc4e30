(** P_signb.v -- the loop of sign, for any floating point behaviour: layout of the produced bytes. *)
From Verif Require Import Base Spec M_ff M_xform P_xform M_codec P_codec P_keys M_sig P_comp P_sigx M_verify M_float M_samp M_fft M_ntru P_ntru M_tree P_tree.
Open Scope Z_scope.

(** compress_sig writes bytes 41 .. sbytelen-1 only, and what it writes does not depend on the buffer *)
Lemma compress_split lg s sig b e : falcon_lg lg -> (sig_bytes lg <= length sig)%nat -> compress_sig lg s sig = Ok (b, e) ->
  exists body, length body = (sig_bytes lg - 41)%nat /\ e = firstn 41 sig ++ body ++ skipn (sig_bytes lg) sig /\
    forall buf, (sig_bytes lg <= length buf)%nat -> compress_sig lg s buf = Ok (b, firstn 41 buf ++ body ++ skipn (sig_bytes lg) buf).
Proof.
  intros Hlg Ls H. destruct (sig_dims lg Hlg) as (D1 & D2 & _). unfold compress_sig in *. rewrite D2 in *.
  apply bind_Ok in H. destruct H as [[buf bit] [E1 H]]. apply bind_Ok in H. destruct H as [bf [E2 H]]. apply bind_Ok in H. destruct H as [src [E3 H]].
  assert (L : length src = (sig_bytes lg - 41)%nat).
  { clear - E3. revert E3. replace (sig_bytes lg - (1 + 40))%nat with (sig_bytes lg - 41)%nat by lia. generalize (sig_bytes lg - 41)%nat as n. generalize 0%nat as o.
    intros o n. revert o src. induction n as [|n IH]; intros o src H; cbn [rds] in H; [injection H as <-; reflexivity|].
    apply bind_Ok in H. destruct H as [x [_ H]]. apply bind_Ok in H. destruct H as [xs [Hx H]]. injection H as <-. cbn [length]. f_equal. apply (IH _ _ Hx). }
  assert (W : forall m : list Z, (sig_bytes lg <= length m)%nat -> wrs m (1 + 40) src = Ok (firstn 41 m ++ src ++ skipn (sig_bytes lg) m)).
  { intros m Lm. rewrite wrs_ok by lia. do 3 f_equal. f_equal. lia. }
  rewrite W in H by exact Ls. cbn [bind] in H. injection H as Hb He. subst e b.
  exists src. split; [exact L|]. split; [reflexivity|]. intros m Lm. rewrite E1. cbn [bind]. rewrite E2. cbn [bind]. rewrite E3. cbn [bind]. rewrite W by exact Lm. reflexivity.
Qed.
Lemma header_lor lg : falcon_lg lg -> Z.lor 48 (Z.of_nat lg) = 48 + Z.of_nat lg.
Proof. intros [->| ->]; reflexivity. Qed.

Section Any.
Variable F : fops.
Variable zt : list (D F * D F).
(** what one successful run of the loop body establishes *)
Definition accepted (sfuel lg : nat) (B T t0 t1 : list (D F * D F)) (smin : D F) (beta2 : Z) (g : rng_t) (pos' : nat) (s2 : list Z) : Prop :=
  exists p z0 z1 s0 s1 n0 n1 s1',
    ff_sampling F zt sfuel lg 0 t0 t1 T 0 smin g p = Ok (z0, z1, pos') /\
    sign_vector F lg B t0 t1 z0 z1 = Ok (s0, s1) /\ sqrd_norm_c F lg s0 = Ok n0 /\ sqrd_norm_c F lg s1 = Ok n1 /\
    fle F (fadd F n0 n1) (fofz F beta2) = true /\
    ifft F zt lg s1 = Ok s1' /\ round_poly F lg s1' (repeat 0%Z (2 ^ lg)) = Ok s2.
Lemma sign_loop_inv lg B T t0 t1 smin beta2 sfuel g : falcon_lg lg -> forall fuel pos sig sig' pos', (sig_bytes lg <= length sig)%nat ->
  sign_loop F zt fuel sfuel lg B T t0 t1 smin beta2 g pos sig = Ok (sig', pos') ->
  exists s2 body, accepted sfuel lg B T t0 t1 smin beta2 g pos' s2 /\ length body = (sig_bytes lg - 41)%nat /\
    (forall buf, (sig_bytes lg <= length buf)%nat -> compress_sig lg s2 buf = Ok (true, firstn 41 buf ++ body ++ skipn (sig_bytes lg) buf)) /\
    sig' = firstn 41 sig ++ body ++ skipn (sig_bytes lg) sig.
Proof.
  intros Hlg. induction fuel as [|fuel IH]; intros pos sig sig' pos' Ls H; [discriminate|]. destruct (sig_dims lg Hlg) as (D1 & _).
  cbn [sign_loop] in H. apply bind_Ok in H. destruct H as [[[z0 z1] p1] [E1 H]]. apply bind_Ok in H. destruct H as [[s0 s1] [E2 H]].
  apply bind_Ok in H. destruct H as [n0 [E3 H]]. apply bind_Ok in H. destruct H as [n1 [E4 H]].
  destruct (fle F (fadd F n0 n1) (fofz F beta2)) eqn:EL; [|apply (IH _ _ _ _ Ls H)].
  apply bind_Ok in H. destruct H as [s1' [E5 H]]. apply bind_Ok in H. destruct H as [s2 [E6 H]]. apply bind_Ok in H. destruct H as [[cmp sg] [E7 H]].
  destruct (compress_split lg s2 sig cmp sg Hlg Ls E7) as (body & Lb & Esg & HB). destruct cmp.
  - injection H as H1 H2. subst sig' p1. exists s2, body. split; [|split; [exact Lb|split; [exact HB|exact Esg]]].
    unfold accepted. eauto 20.
  - assert (LF : length (firstn 41 sig) = 41%nat) by (apply firstn_length_le; lia).
    assert (LS : length sg = length sig) by (subst sg; rewrite !app_length, LF, Lb, skipn_length; lia).
    destruct (IH _ sg _ _ ltac:(lia) H) as (s2' & body' & A & Lb' & HB' & E). exists s2', body'. split; [exact A|]. split; [exact Lb'|]. split; [exact HB'|].
    rewrite E. subst sg. rewrite firstn_app, LF. rewrite firstn_firstn, Nat.min_id. rewrite Nat.sub_diag, firstn_O, app_nil_r. f_equal. f_equal.
    rewrite !skipn_app. rewrite (skipn_all2 (firstn 41 sig)) by lia. rewrite LF, Lb. rewrite (skipn_all2 body) by lia.
    replace (sig_bytes lg - 41 - (sig_bytes lg - 41))%nat with 0%nat by lia. reflexivity.
Qed.
Lemma sign_bt_inv fuel sfuel xof lg B T msg sig g pos sig' pos' : falcon_lg lg -> (sig_bytes lg <= length sig)%nat ->
  sign_bt F zt fuel sfuel xof lg B T msg sig g pos = Ok (sig', pos') ->
  let salt := map (fun i => g (pos + i)%nat) (seq 0 40) in
  exists c t0 t1 s2 body, hash_to_point sfuel xof lg salt msg (repeat 0 (2 ^ lg)) = Ok c /\ sign_target F zt lg B c = Ok (t0, t1) /\
    accepted sfuel lg B T t0 t1 (sigma_min F lg) (beta2 lg) g pos' s2 /\ length body = (sig_bytes lg - 41)%nat /\
    (forall buf, (sig_bytes lg <= length buf)%nat -> compress_sig lg s2 buf = Ok (true, firstn 41 buf ++ body ++ skipn (sig_bytes lg) buf)) /\
    sig' = (48 + Z.of_nat lg :: salt) ++ body ++ skipn (sig_bytes lg) sig.
Proof.
  intros Hlg Ls H salt. unfold sign_bt, rng_read in H. fold salt in H. destruct (sig_dims lg Hlg) as (D1 & _).
  apply bind_Ok in H. destruct H as [c [E1 H]]. apply bind_Ok in H. destruct H as [[t0 t1] [E2 H]]. apply bind_Ok in H. destruct H as [[sg p1] [E3 H]].
  assert (EB : beta2_values lg = beta2 lg) by (destruct Hlg as [->| ->]; reflexivity). rewrite EB in E3.
  destruct (sign_loop_inv _ _ _ _ _ _ _ _ _ Hlg _ _ _ _ _ Ls E3) as (s2 & body & A & Lb & HB & Esg).
  assert (Lsalt : length salt = 40%nat) by (unfold salt; rewrite map_length, seq_length; reflexivity).
  assert (LF : length (firstn 41 sig) = 41%nat) by (apply firstn_length_le; lia).
  apply bind_Ok in H. destruct H as [sg1 [E4 H]]. apply bind_Ok in H. destruct H as [sg2 [E5 H]]. injection H as -> ->.
  exists c, t0, t1, s2, body. repeat (split; [assumption|]). rewrite header_lor in E4 by exact Hlg.
  destruct (firstn 41 sig) as [|x0 rest] eqn:EF; [discriminate|]. cbn [length] in LF. subst sg. cbn [app] in E4. unfold wr in E4. cbn [length Nat.ltb Nat.leb] in E4.
  injection E4 as <-. set (tl := body ++ skipn (sig_bytes lg) sig) in *.
  assert (W := wrs_app salt [48 + Z.of_nat lg] rest tl ltac:(lia)). cbn [app length] in W. cbn [upd] in E5. set (hh := 48 + Z.of_nat lg) in *.
  pose proof (eq_trans (eq_sym W) E5) as EE. injection EE as <-. reflexivity.
Qed.

(** sign on bytes *)
Lemma sign_wrong_header fuel sfuel xof lg skey msg sig rng : falcon_lg lg -> bytes skey -> length skey = skey_len lg ->
  nth 0 skey 0 <> 80 + Z.of_nat lg -> sign F zt fuel sfuel xof lg skey msg sig rng = Ok (false, sig).
Proof.
  intros Hlg Bs Ls Hh. unfold sign.
  destruct (skey_back lg skey (repeat 0 (2 ^ lg)) (repeat 0 (2 ^ lg)) (repeat 0 (2 ^ lg)) skey Hlg Ls Bs) as [H _]; rewrite ?repeat_length; auto.
  rewrite (H Hh). reflexivity.
Qed.
End Any.
