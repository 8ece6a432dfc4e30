(** P_arr.v -- the array variant of samplerz (the one the known answer tests call) against the one used by key generation
    and signing: the same result from the same bytes, the nine proposal bytes of every attempt turned round. *)
From Verif Require Import Base Spec SpecA M_float M_samp.
Open Scope Z_scope.

Lemma ber_pos k z g p w p' : (0 < k)%nat -> ber_loop k z g p = (w, p') -> (p < p' <= p + k)%nat.
Proof.
  revert p. induction k as [|k IH]; intros p Hk H; [lia|]. cbn [ber_loop] in H.
  destruct (_ && _) eqn:E.
  - apply Bool.andb_true_iff in E. destruct E as [_ E]. apply Z.ltb_lt in E. apply IH in H; lia.
  - injection H as _ <-. lia.
Qed.

Lemma ber_fwd k z g p w p' A off ridx rblen : (0 < k)%nat -> ber_loop k z g p = (w, p') ->
  (forall i, (i < p' - p)%nat -> nth_error A (off + ridx + i) = Some (g (p + i)%nat)) -> (off + rblen = length A)%nat ->
  ber_loop_arr k z A off ridx rblen = Ok (w, (ridx + (p' - p))%nat).
Proof.
  revert p ridx. induction k as [|k IH]; intros p ridx Hk H HA Hl; [lia|].
  assert (Hp := ber_pos _ _ _ _ _ _ Hk H). cbn [ber_loop] in H. cbn [ber_loop_arr].
  unfold rd. assert (H0 := HA 0%nat ltac:(lia)). rewrite !Nat.add_0_r in H0. rewrite H0. cbn [bind].
  destruct ((g p - Z.land (Z.shiftr z (8 * Z.of_nat k)) 255 =? 0) && (0 <? 8 * Z.of_nat k)) eqn:E.
  - assert (E2 := E). apply Bool.andb_true_iff in E2. destruct E2 as [_ E2]. apply Z.ltb_lt in E2.
    assert (Hp2 := ber_pos k _ _ _ _ _ ltac:(lia) H).
    assert (H1 := HA 1%nat ltac:(lia)).
    assert (Hn : (off + ridx + 1 < length A)%nat) by (apply nth_error_Some; congruence).
    replace (S ridx <? rblen)%nat with true by (symmetry; apply Nat.ltb_lt; lia). cbn [andb].
    rewrite (IH (S p) (S ridx)); [f_equal; f_equal; lia|lia|exact H| |exact Hl].
    intros i Hi. replace (off + S ridx + i)%nat with (off + ridx + S i)%nat by lia. rewrite HA by lia. f_equal. f_equal. lia.
  - cbn [andb]. injection H as <- <-. f_equal. f_equal. lia.
Qed.

Lemma ber_bwd k z A off ridx rblen w r' : (0 < k)%nat -> ber_loop_arr k z A off ridx rblen = Ok (w, r') -> (off + rblen = length A)%nat ->
  (off + r' < length A)%nat ->
  (ridx < r' <= ridx + k)%nat /\
  forall g p, (forall i, (i < r' - ridx)%nat -> nth_error A (off + ridx + i) = Some (g (p + i)%nat)) ->
    ber_loop k z g p = (w, (p + (r' - ridx))%nat).
Proof.
  revert ridx. induction k as [|k IH]; intros ridx Hk H Hl Hr; [lia|].
  cbn [ber_loop_arr] in H. unfold rd in H. destruct (nth_error A (off + ridx)) as [t|] eqn:Et; [|discriminate]. cbn [bind] in H.
  assert (Hlt : (off + ridx < length A)%nat) by (apply nth_error_Some; congruence).
  destruct ((t - Z.land (Z.shiftr z (8 * Z.of_nat k)) 255 =? 0) && (0 <? 8 * Z.of_nat k)) eqn:E.
  - assert (E2 := E). apply Bool.andb_true_iff in E2. destruct E2 as [_ E2]. apply Z.ltb_lt in E2. cbn [andb] in H.
    destruct (S ridx <? rblen)%nat eqn:En.
    + destruct (IH (S ridx) ltac:(lia) H Hl Hr) as [Hb Hg]. split; [lia|]. intros g p HA.
      assert (H0 := HA 0%nat ltac:(lia)). rewrite !Nat.add_0_r in H0. rewrite Et in H0. injection H0 as ->.
      cbn [ber_loop]. rewrite E. rewrite (Hg g (S p)); [f_equal; lia|].
      intros i Hi. replace (off + S ridx + i)%nat with (off + ridx + S i)%nat by lia. rewrite HA by lia. f_equal. f_equal. lia.
    + apply Nat.ltb_ge in En. injection H as _ <-. lia.
  - cbn [andb] in H. injection H as <- <-. split; [lia|]. intros g p HA.
    assert (H0 := HA 0%nat ltac:(lia)). rewrite !Nat.add_0_r in H0. rewrite Et in H0. injection H0 as ->.
    cbn [ber_loop]. rewrite E. f_equal. lia.
Qed.

Lemma bytes_at_len g p n : length (bytes_at g p n) = n.
Proof. unfold bytes_at. rewrite map_length. apply seq_length. Qed.
Lemma bytes_at_nth g p n i : (i < n)%nat -> nth_error (bytes_at g p n) i = Some (g (p + i)%nat).
Proof.
  intros H. unfold bytes_at. rewrite nth_error_map. rewrite (nth_error_nth' _ 0%nat) by (rewrite seq_length; lia).
  rewrite seq_nth by lia. reflexivity.
Qed.
Lemma bytes_at_app g p n m : bytes_at g p (n + m) = bytes_at g p n ++ bytes_at g (p + n) m.
Proof.
  unfold bytes_at. rewrite seq_app, map_app. f_equal. rewrite Nat.add_0_l.
  replace (seq n m) with (map (fun i => (n + i)%nat) (seq 0 m)).
  - rewrite map_map. apply map_ext. intros. f_equal. lia.
  - assert (G : forall s, map (fun i => (n + i)%nat) (seq s m) = seq (n + s) m).
    { clear. induction m as [|m IH]; intros s; [reflexivity|]. cbn [seq map]. f_equal. rewrite IH. f_equal. lia. }
    rewrite G. f_equal. lia.
Qed.

Lemma app_inj_len {A} (a b c d : list A) : a ++ b = c ++ d -> length a = length c -> a = c /\ b = d.
Proof.
  revert c. induction a as [|x a IH]; intros [|y c] H L; try discriminate L; [auto|]. cbn [app] in H. injection H as -> H.
  cbn [length] in L. destruct (IH c H ltac:(lia)). subst. auto.
Qed.

Lemma skipn_skipn {A} (m n : nat) (l : list A) : skipn m (skipn n l) = skipn (m + n) l.
Proof.
  revert l. induction n as [|n IH]; intros l; [rewrite Nat.add_0_r; reflexivity|]. destruct l as [|x l]; [rewrite !skipn_nil; reflexivity|].
  replace (m + S n)%nat with (S (m + n)) by lia. cbn [skipn]. apply IH.
Qed.

Section Arr.
Variable F : fops.

Lemma arr_fwd fuel mu r ccs t0 g pos v n :
  samplerz_loop F fuel mu r ccs t0 g pos = Ok (v, n) ->
  (pos <= n)%nat /\ exists seg, turned (bytes_at g pos (n - pos)) seg /\ length seg = (n - pos)%nat /\
    forall pre extra, samplerz_arr_loop F fuel mu r ccs t0 (pre ++ seg ++ extra) (length (pre ++ seg ++ extra)) (length pre)
      = Ok (v, (length pre + (n - pos))%nat).
Proof.
  revert pos. induction fuel as [|fuel IH]; intros pos H; [discriminate|]. cbn [samplerz_loop] in H.
  unfold base_sampler_rng, rng_read in H. fold (bytes_at g pos 9) in H.
  destruct (base_sampler (bytes_at g pos 9)) as [z0| |] eqn:Ez; cbn [bind] in H; [|discriminate|discriminate].
  set (b := Z.land (g (pos + 9)%nat) 1) in *. set (x := exponent F r t0 (inv_2sq F (sigma_max F)) z0 b) in *.
  unfold ber_exp in H. destruct (ber_threshold F x ccs) as [z| |] eqn:Et; cbn [bind] in H; [|discriminate|discriminate].
  destruct (ber_loop 8 z g (S (pos + 9))) as [w p'] eqn:Eb. cbn [bind] in H.
  assert (Hp := ber_pos 8 _ _ _ _ _ ltac:(lia) Eb).
  set (m := (p' - S (pos + 9))%nat).
  assert (Hfwd : forall A off, (off + 10 <= length A)%nat ->
      (forall i, (i < m)%nat -> nth_error A (off + 10 + i) = Some (g (S (pos + 9) + i)%nat)) ->
      ber_exp_arr F x ccs A (off + 10) (length A - (off + 10)) = Ok (b2z (w <? 0), m)).
  { intros A off HA HN. unfold ber_exp_arr. rewrite Et. cbn [bind].
    rewrite (ber_fwd 8 z g (S (pos + 9)) w p' A (off + 10) 0); [reflexivity|lia|exact Eb| |lia].
    intros i Hi. rewrite Nat.add_0_r. apply HN. exact Hi. }
  set (a := bytes_at g pos 9) in *. set (rr := bytes_at g (pos + 9) (1 + m)).
  assert (La : length a = 9%nat) by apply bytes_at_len. assert (Lr : length rr = S m) by apply bytes_at_len.
  (* one attempt of the array variant on pre ++ rev a ++ rr ++ rest *)
  assert (Hstep : forall pre rest, let A := pre ++ (rev a ++ rr) ++ rest in
    samplerz_arr_loop F (S fuel) mu r ccs t0 A (length A) (length pre) =
    if b2z (w <? 0) =? 1 then
      o <- to_i32 F (fadd F (fofz F (b + (2 * b - 1) * z0)) (ffloor F mu)) ;; Ok (o, (length pre + 10 + m)%nat)
    else samplerz_arr_loop F fuel mu r ccs t0 A (length A) (length pre + 10 + m)).
  { intros pre rest A. assert (LA : length A = (length pre + (10 + m) + length rest)%nat).
    { unfold A. rewrite !app_length, rev_length. lia. }
    cbn [samplerz_arr_loop]. replace (length pre <? length A)%nat with true by (symmetry; apply Nat.ltb_lt; lia).
    replace (length pre + 9 <=? length A)%nat with true by (symmetry; apply Nat.leb_le; lia). cbn [bind].
    replace (rev (firstn 9 (skipn (length pre) A))) with a.
    2:{ unfold A. rewrite skipn_app, skipn_all, Nat.sub_diag. cbn [app skipn]. rewrite <- app_assoc.
        replace 9%nat with (length (rev a) + 0)%nat at 1 by (rewrite rev_length, La; reflexivity).
        rewrite firstn_app_2. cbn [firstn]. rewrite app_nil_r, rev_involutive. reflexivity. }
    rewrite Ez. cbn [bind]. unfold rd at 1.
    assert (HN : forall i, (i < S m)%nat -> nth_error A (length pre + 9 + i) = Some (g (pos + 9 + i)%nat)).
    { intros i Hi. unfold A. rewrite nth_error_app2 by lia. rewrite nth_error_app1 by (rewrite app_length, rev_length; lia).
      rewrite nth_error_app2 by (rewrite rev_length; lia). rewrite rev_length, La.
      replace (length pre + 9 + i - length pre - 9)%nat with i by lia. apply bytes_at_nth. exact Hi. }
    assert (H0 := HN 0%nat ltac:(lia)). rewrite !Nat.add_0_r in H0. rewrite H0. cbn [bind].
    fold b. fold x. replace (S (length pre + 9)) with (length pre + 10)%nat by lia.
    rewrite (Hfwd A (length pre)); [reflexivity|lia|].
    intros i Hi. replace (length pre + 10 + i)%nat with (length pre + 9 + S i)%nat by lia. rewrite HN by lia. f_equal. f_equal. lia. }
  destruct (b2z (w <? 0) =? 1) eqn:Ew.
  - destruct (to_i32 F (fadd F (fofz F (b + (2 * b - 1) * z0)) (ffloor F mu))) as [o| |] eqn:Eo; cbn [bind] in H; [|discriminate|discriminate].
    injection H as <- <-. split; [lia|]. exists (rev a ++ rr).
    split; [|split; [rewrite app_length, rev_length; lia|]].
    + replace (p' - pos)%nat with (9 + (1 + m))%nat by lia. rewrite bytes_at_app. fold a. fold rr.
      rewrite <- (app_nil_r rr). apply turned_seg; [exact La|lia|constructor].
    + intros pre extra. rewrite Hstep. cbn [bind]. f_equal. f_equal. lia.
  - destruct (IH _ H) as [Hle [seg [Ht [Hls Hs]]]]. split; [lia|]. exists (rev a ++ rr ++ seg).
    split; [|split; [rewrite !app_length, rev_length; lia|]].
    + replace (n - pos)%nat with (9 + ((1 + m) + (n - p')))%nat by lia. rewrite (bytes_at_app g pos 9), (bytes_at_app g (pos + 9) (1 + m)). fold a. fold rr.
      apply turned_seg; [exact La|lia|]. replace (pos + 9 + (1 + m))%nat with p' by lia. exact Ht.
    + intros pre extra.
      replace (pre ++ (rev a ++ rr ++ seg) ++ extra) with (pre ++ (rev a ++ rr) ++ (seg ++ extra)) by (rewrite <- !app_assoc; reflexivity).
      rewrite Hstep.
      replace (pre ++ (rev a ++ rr) ++ (seg ++ extra)) with ((pre ++ rev a ++ rr) ++ seg ++ extra) by (rewrite <- !app_assoc; reflexivity).
      assert (Hlp : (length pre + 10 + m)%nat = length (pre ++ rev a ++ rr)) by (rewrite !app_length, rev_length; lia).
      rewrite Hlp, Hs. f_equal. f_equal. rewrite <- Hlp. lia.
Qed.

Lemma arr_bwd fuel mu r ccs t0 A ridx v n :
  samplerz_arr_loop F fuel mu r ccs t0 A (length A) ridx = Ok (v, n) -> (n < length A)%nat ->
  (ridx <= n)%nat /\ exists l, turned l (firstn (n - ridx) (skipn ridx A)) /\ length l = (n - ridx)%nat /\
    forall g pos, bytes_at g pos (n - ridx) = l -> samplerz_loop F fuel mu r ccs t0 g pos = Ok (v, (pos + (n - ridx))%nat).
Proof.
  revert ridx. induction fuel as [|fuel IH]; intros ridx H Hn.
  { cbn [samplerz_arr_loop] in H. destruct (ridx <? length A)%nat eqn:E; [discriminate|]. apply Nat.ltb_ge in E. injection H as _ <-. lia. }
  cbn [samplerz_arr_loop] in H. destruct (ridx <? length A)%nat eqn:E; [|apply Nat.ltb_ge in E; injection H as _ <-; lia].
  destruct (ridx + 9 <=? length A)%nat eqn:E9; [|discriminate]. cbn [bind] in H. apply Nat.leb_le in E9.
  set (c := firstn 9 (skipn ridx A)) in *.
  assert (Lc : length c = 9%nat) by (unfold c; rewrite firstn_length, skipn_length; lia).
  destruct (base_sampler (rev c)) as [z0| |] eqn:Ez; cbn [bind] in H; [|discriminate|discriminate].
  unfold rd at 1 in H. destruct (nth_error A (ridx + 9)) as [b0|] eqn:E0; [|discriminate]. cbn [bind] in H.
  assert (Hl0 : (ridx + 9 < length A)%nat) by (apply nth_error_Some; congruence).
  set (b := Z.land b0 1) in *. set (x := exponent F r t0 (inv_2sq F (sigma_max F)) z0 b) in *.
  unfold ber_exp_arr in H. destruct (ber_threshold F x ccs) as [z| |] eqn:Et; cbn [bind] in H; [|discriminate|discriminate].
  destruct (ber_loop_arr 8 z A (S (ridx + 9)) 0 (length A - S (ridx + 9))) as [[w m]| |] eqn:Eb; cbn [bind] in H; [|discriminate|discriminate].
  (* the attempt ends inside the array *)
  assert (Hm : (S (ridx + 9) + m <= n)%nat).
  { destruct (b2z (w <? 0) =? 1).
    - destruct (to_i32 _ _); cbn [bind] in H; [|discriminate|discriminate]. injection H as _ <-. lia.
    - clear -IH H Hn. destruct (IH _ H Hn). lia. }
  destruct (ber_bwd 8 z A (S (ridx + 9)) 0 _ w m ltac:(lia) Eb ltac:(lia) ltac:(lia)) as [Hmb Hg].
  set (rr := firstn (1 + m) (skipn (ridx + 9) A)).
  assert (Lr : length rr = S m) by (unfold rr; rewrite firstn_length, skipn_length; lia).
  assert (Hsplit : forall k, (S (ridx + 9) + m + k <= length A)%nat ->
     firstn (10 + m + k) (skipn ridx A) = c ++ rr ++ firstn k (skipn (S (ridx + 9) + m) A)).
  { intros k Hk. rewrite <- (firstn_skipn 9 (skipn ridx A)). fold c. rewrite skipn_skipn.
    replace (10 + m + k)%nat with (length c + (1 + m + k))%nat by lia. rewrite firstn_app_2. f_equal.
    replace (9 + ridx)%nat with (ridx + 9)%nat by lia.
    rewrite <- (firstn_skipn (1 + m) (skipn (ridx + 9) A)). fold rr. rewrite skipn_skipn.
    replace (1 + m + k)%nat with (length rr + k)%nat by lia. rewrite firstn_app_2. f_equal. f_equal. f_equal. lia. }
  (* one attempt on a stream that has the bytes rev c ++ rr at pos *)
  assert (Hstep : forall g pos, bytes_at g pos 9 = rev c -> bytes_at g (pos + 9) (1 + m) = rr ->
    samplerz_loop F (S fuel) mu r ccs t0 g pos =
    if b2z (w <? 0) =? 1 then
      o <- to_i32 F (fadd F (fofz F (b + (2 * b - 1) * z0)) (ffloor F mu)) ;; Ok (o, (pos + (10 + m))%nat)
    else samplerz_loop F fuel mu r ccs t0 g (pos + (10 + m))).
  { intros g pos H9 Hr. cbn [samplerz_loop]. unfold base_sampler_rng, rng_read. fold (bytes_at g pos 9). rewrite H9, Ez. cbn [bind].
    assert (HA : forall i, (i < S m)%nat -> nth_error A (ridx + 9 + i) = Some (g (pos + 9 + i)%nat)).
    { intros i Hi. rewrite <- (bytes_at_nth g (pos + 9) (1 + m) i) by lia. rewrite Hr. unfold rr.
      rewrite <- (firstn_skipn (ridx + 9) A) at 1. rewrite nth_error_app2 by (rewrite firstn_length; lia).
      rewrite firstn_length_le by lia. replace (ridx + 9 + i - (ridx + 9))%nat with i by lia.
      rewrite <- (firstn_skipn (1 + m) (skipn (ridx + 9) A)) at 1. rewrite nth_error_app1; [reflexivity|]. fold rr. lia. }
    assert (H0 := HA 0%nat ltac:(lia)). rewrite !Nat.add_0_r in H0. rewrite E0 in H0. injection H0 as <-. fold b. fold x.
    unfold ber_exp. rewrite Et. cbn [bind]. rewrite (Hg g (S (pos + 9))).
    - cbn [bind]. replace (S (pos + 9) + (m - 0))%nat with (pos + (10 + m))%nat by lia. reflexivity.
    - intros i Hi. replace (S (ridx + 9) + 0 + i)%nat with (ridx + 9 + S i)%nat by lia. rewrite HA by lia. f_equal. f_equal. lia. }
  destruct (b2z (w <? 0) =? 1) eqn:Ew.
  - destruct (to_i32 F (fadd F (fofz F (b + (2 * b - 1) * z0)) (ffloor F mu))) as [o| |] eqn:Eo; cbn [bind] in H; [|discriminate|discriminate].
    injection H as <- <-. split; [lia|]. exists (rev c ++ rr).
    split; [|split; [rewrite app_length, rev_length; lia|]].
    + replace (S (ridx + 9 + m) - ridx)%nat with (10 + m + 0)%nat by lia. rewrite (Hsplit 0%nat) by lia. cbn [firstn].
      rewrite <- (rev_involutive c) at 2. rewrite <- (app_nil_r rr) at 1. apply turned_seg; [rewrite rev_length; exact Lc|lia|constructor].
    + intros g pos Hl. replace (S (ridx + 9 + m) - ridx)%nat with (9 + (1 + m))%nat in Hl by lia. rewrite bytes_at_app in Hl.
      apply app_inj_len in Hl; [|rewrite bytes_at_len, rev_length; lia]. destruct Hl as [Hl1 Hl2].
      rewrite (Hstep g pos Hl1 Hl2). cbn [bind]. f_equal. f_equal. lia.
  - destruct (IH _ H Hn) as [Hle [l [Ht [Hll Hs]]]]. split; [lia|]. exists (rev c ++ rr ++ l).
    split; [|split; [rewrite !app_length, rev_length; lia|]].
    + replace (n - ridx)%nat with (10 + m + (n - (S (ridx + 9) + m)))%nat by lia. rewrite (Hsplit (n - (S (ridx + 9) + m))%nat) by lia.
      rewrite <- (rev_involutive c) at 2. apply turned_seg; [rewrite rev_length; exact Lc|lia|exact Ht].
    + intros g pos Hl. replace (n - ridx)%nat with (9 + ((1 + m) + (n - (S (ridx + 9) + m))))%nat in Hl by lia. rewrite (bytes_at_app g pos 9), (bytes_at_app g (pos + 9) (1 + m)) in Hl.
      apply app_inj_len in Hl; [|rewrite bytes_at_len, rev_length; lia]. destruct Hl as [Hl1 Hl2].
      apply app_inj_len in Hl2; [|rewrite bytes_at_len; lia]. destruct Hl2 as [Hl2 Hl3].
      rewrite (Hstep g pos Hl1 Hl2). replace (pos + (10 + m))%nat with (pos + 9 + (1 + m))%nat by lia.
      rewrite (Hs g _ Hl3). f_equal. f_equal. lia.
Qed.

Theorem arr_of_stream fuel mu s sm g v n : samplerz F fuel mu s sm g 0 = Ok (v, n) ->
  exists rbytes, turned (bytes_at g 0 n) rbytes /\
    forall extra, samplerz_arr F fuel mu s sm (rbytes ++ extra) (length (rbytes ++ extra)) = Ok (v, n).
Proof.
  intros H. destruct (arr_fwd _ _ _ _ _ _ _ _ _ H) as [_ [seg [Ht [_ Hs]]]]. rewrite Nat.sub_0_r in *. exists seg. split; [exact Ht|].
  intros extra. apply (Hs [] extra).
Qed.

Theorem stream_of_arr fuel mu s sm rbytes v n : samplerz_arr F fuel mu s sm rbytes (length rbytes) = Ok (v, n) -> (n < length rbytes)%nat ->
  exists l, turned l (firstn n rbytes) /\ length l = n /\
    forall g, bytes_at g 0 n = l -> samplerz F fuel mu s sm g 0 = Ok (v, n).
Proof.
  intros H Hn. destruct (arr_bwd _ _ _ _ _ _ _ _ _ H Hn) as [_ [l [Ht [Hl Hs]]]]. rewrite Nat.sub_0_r in *. exists l.
  split; [exact Ht|]. split; [exact Hl|]. intros g Hg. exact (Hs g 0%nat Hg).
Qed.
End Arr.
