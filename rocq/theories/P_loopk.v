(** P_loopk.v -- the signatures of sign: the loop of sign_bt as a program, and the distribution of its results. *)
From Verif Require Import Base Ring Poly Spec SpecR SpecS SpecG SpecJ M_ff M_xform P_xform M_codec P_codec P_keys M_ntt M_sig P_sig P_comp P_sigx M_verify M_float M_exact P_exact M_samp M_fft M_ntru P_ntru M_tree P_tree P_brv P_cplx P_fft P_treex P_gs P_leaf P_sign P_signb P_signx P_signv P_norm P_normx P_defx.
From Verif Require Import P_prob P_dist P_joint P_gsum P_prog P_jprob P_pnorm P_pdef P_jfin P_jtot P_jkey P_jgauss P_coset P_jcoset P_loop.
From Coq Require Import Lra.
Open Scope R_scope.
Notation ind := P_prob.ind.

(** ** the loop as a program, for any floating point behaviour *)
Section Any.
Variable F : fops.
Variable zt : list (D F * D F).
Variables (lg : nat) (B T t0 t1 : list (D F * D F)) (smin : D F) (b2 : Z).
Definition post (z0 z1 : list (D F * D F)) (sig : list Z) : res (bool * list Z) :=
  '(s0, s1) <- sign_vector F lg B t0 t1 z0 z1 ;;
  n0 <- sqrd_norm_c F lg s0 ;;
  n1 <- sqrd_norm_c F lg s1 ;;
  if fle F (fadd F n0 n1) (fofz F b2) then
    s1 <- ifft F zt lg s1 ;;
    s2 <- round_poly F lg s1 (repeat 0%Z (2 ^ lg)) ;;
    compress_sig lg s2 sig
  else Ok (false, sig).
Fixpoint lp (m : nat) (sig : list Z) : prog F (list Z) :=
  match m with
  | O => Stop false
  | S m' => pbind (ff_prog F zt T lg 0 t0 t1 0) (fun z => pbind (P_prog.lift (post (fst z) (snd z) sig)) (fun be => if fst be then Ret (snd be) else lp m' (snd be)))
  end.
Lemma run_lp k g m : forall pos sig, sign_loop F zt m k lg B T t0 t1 smin b2 g pos sig = run smin k g (lp m sig) pos.
Proof.
  induction m as [|m IH]; intros pos sig; [reflexivity|]. cbn [sign_loop lp]. rewrite run_bind, run_ff.
  destruct (run smin k g (ff_prog F zt T lg 0 t0 t1 0) pos) as [[[z0 z1] p]| |]; cbn [bind fst snd]; [|reflexivity|reflexivity]. rewrite run_lift. unfold post.
  destruct (sign_vector F lg B t0 t1 z0 z1) as [[s0 s1]| |]; cbn [bind]; [|reflexivity|reflexivity]. destruct (sqrd_norm_c F lg s0) as [n0| |]; cbn [bind]; [|reflexivity|reflexivity].
  destruct (sqrd_norm_c F lg s1) as [n1| |]; cbn [bind]; [|reflexivity|reflexivity]. destruct (fle F (fadd F n0 n1) (fofz F b2)); cbn [bind fst snd]; [|apply IH].
  destruct (ifft F zt lg s1) as [s1'| |]; cbn [bind]; [|reflexivity|reflexivity]. destruct (round_poly F lg s1' (repeat 0%Z (2 ^ lg))) as [s2| |]; cbn [bind]; [|reflexivity|reflexivity].
  destruct (compress_sig lg s2 sig) as [[b e]| |]; cbn [bind fst snd]; [|reflexivity|reflexivity]. destruct b; [reflexivity|apply IH].
Qed.
End Any.

(** ** the encoding is a prefix code *)
Lemma unary_inj k k' (r r' : list bool) : repeat false k ++ true :: r = repeat false k' ++ true :: r' -> k = k' /\ r = r'.
Proof.
  revert k'. induction k as [|k IH]; intros [|k'] H; cbn [repeat app] in H; [split; [reflexivity|congruence]|discriminate|discriminate|].
  assert (H' : repeat false k ++ true :: r = repeat false k' ++ true :: r') by congruence. destruct (IH k' H') as [-> ->]. split; reflexivity.
Qed.
Lemma enc_prefix x y r r' : enc x ++ r = enc y ++ r' -> x = y /\ r = r'.
Proof.
  unfold enc. rewrite <- !app_comm_cons, <- !app_assoc. cbn [app]. intros H. assert (S1 := f_equal (hd false) H). assert (S2 := f_equal (@tl bool) H). cbn [hd tl] in S1, S2. clear H.
  apply app_eq_len in S2; [|rewrite !low7_length; reflexivity]. destruct S2 as [L U]. apply unary_inj in U. destruct U as [K R]. split; [|exact R].
  assert (M : (Z.abs x mod 128 = Z.abs y mod 128)%Z) by (rewrite <- !bv_low7, L; reflexivity).
  assert (Q : (Z.abs x / 128 = Z.abs y / 128)%Z) by (apply Z2Nat.inj; [apply Z.div_pos; lia|apply Z.div_pos; lia|exact K]).
  assert (A : Z.abs x = Z.abs y) by (rewrite (Z.div_mod (Z.abs x) 128), (Z.div_mod (Z.abs y) 128), M, Q by lia; reflexivity).
  destruct (Z.ltb_spec x 0), (Z.ltb_spec y 0); try discriminate; lia.
Qed.
Lemma zeros_true n (l : list bool) : repeat false n = l -> ~ In true l.
Proof. intros <- H. apply repeat_spec in H. discriminate. Qed.
Lemma enc_true x : In true (enc x).
Proof. unfold enc. right. apply in_or_app. right. apply in_or_app. right. left. reflexivity. Qed.
Lemma encs_inj : forall s s' n n', encs s ++ repeat false n = encs s' ++ repeat false n' -> s = s'.
Proof.
  induction s as [|x s IH]; intros [|y s'] n n' H; [reflexivity| | |].
  - exfalso. apply (zeros_true _ _ H). unfold encs. cbn [flat_map]. apply in_or_app. left. apply in_or_app. left. apply enc_true.
  - exfalso. apply (zeros_true _ _ (eq_sym H)). unfold encs. cbn [flat_map]. apply in_or_app. left. apply in_or_app. left. apply enc_true.
  - unfold encs in H. cbn [flat_map] in H. rewrite <- !app_assoc in H. apply enc_prefix in H. destruct H as [-> H]. f_equal. apply (IH s' n n'). exact H.
Qed.

(** ** finite sets *)
Fixpoint cube (M : nat) (n : nat) : list (list Z) := match n with O => [[]] | S n' => flat_map (fun v => map (cons v) (cube M n')) (vals M 0) end.
Lemma cube_in M : forall n l, length l = n -> Forall (fun x => (Z.abs x <= Z.of_nat M)%Z) l -> In l (cube M n).
Proof.
  induction n as [|n IH]; intros [|x l] L H; try discriminate; [left; reflexivity|]. inversion H as [|? ? Hx Hl]. subst. cbn [cube]. apply in_flat_map. exists x. split; [apply vals_in; lia|]. apply in_map. apply IH; [cbn in L; lia|exact Hl].
Qed.
Lemma pair_dec (x y : list Z * list Z) : {x = y} + {x <> y}.
Proof. decide equality; apply list_eq_dec; apply Z.eq_dec. Qed.
Lemma signable_dec lg c h s : {signable lg c h s} + {~ signable lg c h s}.
Proof.
  unfold signable, coset. destruct (Nat.eq_dec (length (fst s)) (2 ^ lg)) as [A|A]; [|right; tauto]. destruct (Nat.eq_dec (length (snd s)) (2 ^ lg)) as [B|B]; [|right; tauto].
  destruct (list_eq_dec Z.eq_dec (modq (fst s)) (s1_residues lg c (snd s) h)) as [C|C]; [|right; tauto]. destruct (Z_le_dec (sqnorm (fst s) + sqnorm (snd s)) (beta2 lg)) as [D|D]; [|right; tauto].
  destruct (Z_lt_dec (tot (snd s)) (body_len lg)) as [E|E]; [left; tauto|right; tauto].
Qed.
Lemma coeff_sqrt (a : list Z) b : (sqnorm a <= b)%Z -> Forall (fun x => (Z.abs x <= Z.of_nat (Z.to_nat b))%Z) a.
Proof.
  intros H. rewrite Forall_forall. intros x Hx. assert (X := sqnorm_coeff _ _ Hx). assert (x * x = Z.abs x * Z.abs x)%Z by (symmetry; apply Z.abs_square). assert (Z.abs x <= Z.abs x * Z.abs x)%Z by nia. lia.
Qed.
Lemma signable_list lg c h : exists LA, NoDup LA /\ forall s, In s LA <-> signable lg c h s.
Proof.
  set (M := Z.to_nat (beta2 lg)). exists (nodup pair_dec (filter (fun s => if signable_dec lg c h s then true else false) (list_prod (cube M (2 ^ lg)) (cube M (2 ^ lg))))).
  split; [apply NoDup_nodup|]. intros s. rewrite nodup_In, filter_In. destruct (signable_dec lg c h s) as [G|G]; split; try tauto; try (intros [_ ?]; discriminate).
  intros _. split; [|reflexivity]. destruct G as ((L1 & L2 & _) & Nm & _). assert (P1 := sqnorm_pos (fst s)). assert (P2 := sqnorm_pos (snd s)). destruct s as [s1 s2]. cbn [fst snd] in *.
  apply in_prod; apply cube_in; try assumption; apply coeff_sqrt; lia.
Qed.
Lemma total_list {X} (dec : forall x y : X, {x = y} + {x <> y}) (dom : X -> Prop) (f : X -> R) L : NoDup L -> (forall s, In s L <-> dom s) -> (forall s, 0 <= f s) -> total dom f (lsum f L).
Proof.
  intros N E P. split.
  - intros r (l & Nl & Dl & ->). apply lsum_incl; [exact dec|exact P|exact Nl|]. intros x Hx. left. apply E. rewrite Forall_forall in Dl. apply Dl, Hx.
  - intros b Hb. apply Hb. exists L. split; [exact N|]. split; [|reflexivity]. rewrite Forall_forall. intros x Hx. apply E, Hx.
Qed.
Lemma lsum_pick {X} (dec : forall x y : X, {x = y} + {x <> y}) (f : X -> R) v L : NoDup L -> lsum (fun s => ind (if dec s v then true else false) * f s) L = if in_dec dec v L then f v else 0.
Proof.
  induction 1 as [|x L Hx N IH]; [reflexivity|]. unfold lsum in *. cbn [fold_right]. rewrite IH. destruct (dec x v) as [->|D]; cbn [ind].
  - destruct (in_dec dec v L) as [I|I]; [contradiction|]. destruct (in_dec dec v (v :: L)) as [J|J]; [ring|exfalso; apply J; left; reflexivity].
  - destruct (in_dec dec v L) as [I|I], (in_dec dec v (x :: L)) as [J|J]; try ring; exfalso; [apply J; right; exact I|]. destruct J as [J|J]; contradiction.
Qed.

(** ** compress_sig on a short vector *)
Lemma compress_short lg s : falcon_lg lg -> length s = (2 ^ lg)%nat -> (sqnorm s <= beta2 lg)%Z -> exists body, length body = (sig_bytes lg - 41)%nat /\
  (forall buf, (sig_bytes lg <= length buf)%nat -> compress_sig lg s buf = Ok ((tot s <? body_len lg)%Z, firstn 41 buf ++ body ++ skipn (sig_bytes lg) buf)) /\
  ((tot s < body_len lg)%Z -> bits_of body = encs s ++ repeat false (Z.to_nat (body_len lg - tot s))).
Proof.
  intros Hlg Ls Hb. destruct (sig_dims lg Hlg) as (D1 & D2 & _). assert (L0 : length (repeat 0%Z (sig_bytes lg)) = sig_bytes lg) by apply repeat_length.
  destruct (compress_no_oob lg s _ Hlg Ls L0 Hb) as (b & e & E & _). assert (L0' : length (repeat 0%Z (sig_bytes lg)) = sig_len lg) by (rewrite D2; exact L0).
  destruct (compress_ok lg s _ Hlg Ls L0') as [H1 H2]. destruct (Z.le_gt_cases (tot s) (14 * 2 ^ Z.of_nat lg)) as [C|C]; [|specialize (H2 C); rewrite H2 in E; discriminate].
  destruct (H1 C) as (body & E' & Bb & Lb & Eb & _). rewrite D2 in Lb, L0'.
  destruct (compress_split lg s _ _ _ Hlg ltac:(rewrite L0; apply le_n) E') as (bd & Lbd & Es & H). exists bd. split; [exact Lbd|]. split; [exact H|].
  rewrite (skipn_all2 (repeat 0%Z (sig_bytes lg))) in Es by (rewrite L0; apply le_n). rewrite app_nil_r in Es. apply app_inv_head in Es. subst bd. exact Eb.
Qed.
Lemma body_mid lg (buf body : list Z) : falcon_lg lg -> (sig_bytes lg <= length buf)%nat -> length body = (sig_bytes lg - 41)%nat ->
  body_bits lg (firstn 41 buf ++ body ++ skipn (sig_bytes lg) buf) = bits_of body /\ length (firstn 41 buf ++ body ++ skipn (sig_bytes lg) buf) = length buf.
Proof.
  intros Hlg Lb L. destruct (sig_dims lg Hlg) as (D1 & _). split.
  - unfold body_bits. rewrite skipn_app, firstn_length_le by lia. rewrite (skipn_all2 (firstn 41 buf)) by (rewrite firstn_length; lia). rewrite Nat.sub_diag. cbn [app skipn]. rewrite firstn_app, L, Nat.sub_diag, firstn_O, app_nil_r, <- L, firstn_all. reflexivity.
  - rewrite !app_length, firstn_length, skipn_length, L. lia.
Qed.

Section Key.
Variable lg : nat.
Hypothesis Hlg : falcon_lg lg.
Notation N := (2 ^ lg)%nat.
Variables f g F_ G_ : list Z.
Hypotheses (Lf : length f = N) (Lg : length g = N) (LF : length F_ = N) (LG : length G_ = N).
Hypothesis HN : ntru N f g F_ G_.
Hypothesis HGS : gs_norm lg f g <= 117 / 100 * (117 / 100) * 12289.
Hypothesis Hsm : lg = 10%nat \/ sigma_min RF lg * sigma_min RF lg * gs_norm lg f g <= sigma_value RF lg * sigma_value RF lg.
Hypotheses (BF : Forall (fun x => Z.abs x <= 27000)%Z F_) (BG : Forall (fun x => Z.abs x <= 27000)%Z G_).
Hypotheses (Sf : Forall smallq f) (Sg : Forall smallq g).
Hypothesis HI : is_poly_invertible lg f = Ok true.
Variables h0 h : list Z.
Hypothesis Lh0 : length h0 = N.
Hypothesis HK : compute_public_key lg f g h0 = Ok h.
Variables B T0 T : list (D RF * D RF).
Hypothesis LT0 : ((lg + 1) * N <= length T0)%nat.
Hypothesis HB : compute_matrix_B RF exact_table lg f g F_ G_ = Ok B.
Hypothesis HT : compute_falcon_tree RF exact_table lg B T0 = Ok T.
Variables (c : list Z) (t0 t1 : list (D RF * D RF)).
Hypothesis Lc : length c = N.
Hypothesis Hc : Forall canon c.
Hypothesis Ht : sign_target RF exact_table lg B c = Ok (t0, t1).
Notation pairN := (fun a : list Z * list Z => length (fst a) = N /\ length (snd a) = N).
Notation vec a := (psub N (psub N c (negacyclic N (fst a) g)) (negacyclic N (snd a) G_), padd N (negacyclic N (fst a) f) (negacyclic N (snd a) F_)).
Notation wt s := (exp (- (IZR (sqnorm (fst s) + sqnorm (snd s)) / (2 * (sigma_value RF lg * sigma_value RF lg))))).
Notation sm := (sigma_min RF lg).
Notation p := (ff_prog RF exact_table T lg 0 t0 t1 0).
Notation V a := (values lg (map Cz a)).
Notation b2 := (beta2 lg).

Lemma prog_law : lawp RF sm (fun x => x) (fun x => x) (thx sm) p /\ deep RF (2 * N) p /\
  (forall z, (exists cs, pcalls p cs z) -> exists a, pairN a /\ z = (V (fst a), V (snd a))).
Proof.
  assert (lg1 : (1 <= lg <= 10)%nat) by (destruct Hlg as [->| ->]; lia). assert (lg10 : (lg <= 10)%nat) by lia.
  assert (HB' := HB). rewrite (matrix_B_ok lg lg10 f g F_ G_ Lf Lg LF LG) in HB'. apply (f_equal (fun r => match r with Ok v => v | _ => [] end)) in HB'. cbv beta iota in HB'.
  assert (HT' := HT). assert (Ht' := Ht). rewrite <- HB' in HT', Ht'. clear HB'.
  destruct (tree_ok lg f g F_ G_ T0 lg1 Lf Lg LF LG HN LT0) as [T' [E [LT' St]]].
  pose proof (eq_trans (eq_sym HT') E) as ET. apply (f_equal (fun r => match r with Ok v => v | _ => [] end)) in ET. cbv beta iota in ET. subst T'. clear E.
  rewrite target_ok in Ht' by assumption.
  assert (X0 := f_equal (fun r => match r with Ok v => fst v | _ => [] end) Ht'). assert (X1 := f_equal (fun r => match r with Ok v => snd v | _ => [] end) Ht').
  cbn [fst snd] in X0, X1. rewrite <- X0, <- X1. clear Ht' HT' X0 X1.
  assert (GL := root_okl lg Hlg f g F_ G_ Lf Lg LF LG HN HGS Hsm). assert (Sm := smin_lo lg Hlg f g F_ G_ Lf Lg LF LG HN HGS Hsm). assert (Ss := sigma_small lg Hlg). assert (LTT : ((lg + 1) * N <= @length Cx T)%nat) by (eapply Nat.le_trans; [exact LT0|apply Nat.eq_le_incl; symmetry; exact LT']).
  assert (HGS' : gs_norm lg f g <= 16823) by lra.
  set (sg := sigma_value RF lg) in *. set (sn := sigma_min RF lg) in *. clearbody sg sn. clear Hsm HGS lg1 LT0 LT' Lh0 HK HB HT Ht HI Sf Sg.
  assert (exists h, lg = S h) as [hh Eh] by (exists (lg - 1)%nat; destruct Hlg as [->| ->]; reflexivity). clear Hlg. clear h0 h.
  revert Lf Lg LF LG HN Lc St lg10 GL LTT HGS'. rewrite Eh. clear Eh. clear lg. intros.
  destruct (root_law hh lg10 f g F_ G_ Lf Lg LF LG HN HGS' BF BG T sg sn c Ss Sm Hc LTT St GL) as [Hsd Hlaw].
  split; [exact Hlaw|]. split; [apply (deep_ff RF sn (fun x => x) (fun x => x) (thx sn))|].
  intros z [cs Hz]. assert (Hs0 : sg <> 0) by lra. destruct (root_res hh lg10 f g F_ G_ Lf Lg LF LG HN T sg c Hs0 LTT St cs z Hz) as (a0 & a1 & Ez & _).
  exists (zpl a0, zpl a1). split; [split; apply pl_length|]. cbn [fst snd]. rewrite Ez, !ft_emb_values. reflexivity.
Qed.
Lemma vector_val a : pairN a -> sign_vector RF lg B t0 t1 (V (fst a)) (V (snd a)) = Ok (ft (emb (ofl Z 0%Z N (fst (vec a)))), ft (emb (ofl Z 0%Z N (snd (vec a))))).
Proof.
  intros [A0 A1]. assert (lg10 : (lg <= 10)%nat) by (destruct Hlg as [->| ->]; lia).
  assert (HB' := HB). rewrite (matrix_B_ok lg lg10 f g F_ G_ Lf Lg LF LG) in HB'. apply (f_equal (fun r => match r with Ok v => v | _ => [] end)) in HB'. cbv beta iota in HB'.
  assert (Ht' := Ht). rewrite <- HB' in Ht' |- *. rewrite target_ok in Ht' by assumption.
  assert (X0 := f_equal (fun r => match r with Ok v => fst v | _ => [] end) Ht'). assert (X1 := f_equal (fun r => match r with Ok v => snd v | _ => [] end) Ht'). cbn [fst snd] in X0, X1. rewrite <- X0, <- X1.
  assert (W : forall l, length l = N -> V l = ft (emb (ofl Z 0%Z N l))) by (intros l Ll; rewrite ft_emb_values, (pl_ofl Z 0%Z N l Ll); reflexivity).
  rewrite (W _ A0), (W _ A1). rewrite (vector_ok lg lg10 f g F_ G_ c (ofl Z 0%Z N (fst a)) (ofl Z 0%Z N (snd a)) HN).
  assert (S0 : zpl (sv0 lg g G_ c (ofl Z 0%Z N (fst a)) (ofl Z 0%Z N (snd a))) = fst (vec a)) by (unfold sv0; cbn [fst snd]; rewrite (v1_pl lg g G_ c (fst a) (snd a) Lc); reflexivity).
  assert (S1 : zpl (sv1 lg f F_ (ofl Z 0%Z N (fst a)) (ofl Z 0%Z N (snd a))) = snd (vec a)) by (unfold sv1; cbn [fst snd]; rewrite (v2_pl lg f F_ (fst a) (snd a)); reflexivity).
  rewrite <- S0, <- S1, !(ofl_pl Z 0%Z N). reflexivity.
Qed.
Lemma draws_val a s n : pairN a -> pairN s -> draws lg B t0 t1 (Ok (V (fst a), V (snd a), n)) s = if pair_dec s (vec a) then true else false.
Proof.
  intros Da [S0 S1]. assert (lg10 : (lg <= 10)%nat) by (destruct Hlg as [->| ->]; lia). unfold draws. rewrite (vector_val a Da), !ft_emb_values, !(pl_ofl Z 0%Z N) by apply tab_length.
  apply Bool.eq_true_iff_eq. rewrite Bool.andb_true_iff, !is_fft_ok. destruct (pair_dec s (vec a)) as [->|D].
  - cbn [fst snd]. split; [reflexivity|split; reflexivity].
  - split; [|discriminate]. intros [E0 E1]. exfalso. apply D. apply (values_inj lg lg10) in E0; [|apply tab_length|exact S0]. apply (values_inj lg lg10) in E1; [|apply tab_length|exact S1]. destruct s. cbn [fst snd] in *. rewrite E0, E1. reflexivity.
Qed.
Lemma post_val a : pairN a -> exists body, length body = (sig_bytes lg - 41)%nat /\
  (forall buf, (sig_bytes lg <= length buf)%nat -> exists e, post RF exact_table lg B t0 t1 b2 (V (fst a)) (V (snd a)) buf = Ok (if signable_dec lg c h (vec a) then true else false, e) /\ length e = length buf /\
    (signable lg c h (vec a) -> body_bits lg e = bits_of body)) /\
  (signable lg c h (vec a) -> bits_of body = encs (snd (vec a)) ++ repeat false (Z.to_nat (body_len lg - tot (snd (vec a))))).
Proof.
  intros Da. assert (lg10 : (lg <= 10)%nat) by (destruct Hlg as [->| ->]; lia). assert (L0 : length (fst (vec a)) = N) by apply tab_length. assert (L1 : length (snd (vec a)) = N) by apply tab_length.
  assert (Cs := vec_in lg Hlg f g F_ G_ Lf Lg LF LG HN Sf Sg HI h0 h Lh0 HK c a Lc Da).
  assert (Ev := vector_val a Da). set (v := vec a) in *. clearbody v. clear Da.
  assert (P0 := sqnorm_pos (fst v)). assert (P1 := sqnorm_pos (snd v)).
  assert (LE : fle RF (IZR (sqnorm (fst v)) + IZR (sqnorm (snd v))) (IZR b2) = (sqnorm (fst v) + sqnorm (snd v) <=? b2)%Z).
  { cbn. rewrite <- plus_IZR. destruct (Rle_dec _ _) as [H|H], (Z.leb_spec (sqnorm (fst v) + sqnorm (snd v)) b2) as [H'|H']; try reflexivity; exfalso; [apply le_IZR in H; lia|apply H, IZR_le; exact H']. }
  assert (PB : forall buf, post RF exact_table lg B t0 t1 b2 (V (fst a)) (V (snd a)) buf = if (sqnorm (fst v) + sqnorm (snd v) <=? b2)%Z then compress_sig lg (snd v) buf else Ok (false, buf)).
  { intros buf. unfold post. rewrite Ev. cbn [bind]. rewrite !sqnorm_emb. cbn [bind]. rewrite !(pl_ofl Z 0%Z N) by assumption. change (fadd RF) with Rplus. change (fofz RF b2) with (IZR b2).
    rewrite LE. destruct (Z.leb_spec (sqnorm (fst v) + sqnorm (snd v)) b2) as [Q|Q]; [|reflexivity]. rewrite ifft_ok by exact lg10. cbn [bind]. rewrite round_ok; [|apply repeat_length|].
    - cbn [bind]. rewrite (pl_ofl Z 0%Z N) by exact L1. reflexivity.
    - rewrite (pl_ofl Z 0%Z N) by exact L1. rewrite Forall_forall. intros x Hx. assert (X := sqnorm_coeff _ _ Hx). assert (b2 <= 100000000)%Z by (destruct Hlg as [->| ->]; discriminate). nia. }
  destruct (Z.leb_spec (sqnorm (fst v) + sqnorm (snd v)) b2) as [Q|Q].
  - destruct (compress_short lg (snd v) Hlg L1 ltac:(lia)) as (body & Lb & HC & HE). exists body. split; [exact Lb|]. split.
    + intros buf Lbuf. rewrite PB, (HC buf Lbuf). destruct (body_mid lg buf body Hlg Lbuf Lb) as [M1 M2]. eexists. split; [|split; [exact M2|intros _; exact M1]].
      f_equal. f_equal. destruct (signable_dec lg c h v) as [G|G].
      * apply Z.ltb_lt. apply G.
      * apply Z.ltb_ge. destruct (Z.le_gt_cases (body_len lg) (tot (snd v))) as [X|X]; [exact X|]. exfalso. apply G. split; [exact Cs|]. split; [exact Q|exact X].
    + intros G. apply HE. apply G.
  - exists (repeat 0%Z (sig_bytes lg - 41)). split; [apply repeat_length|]. split.
    + intros buf Lbuf. exists buf. destruct (signable_dec lg c h v) as [G|G]; [exfalso; destruct G as (_ & G & _); lia|]. split; [apply PB|]. split; [reflexivity|]. intros G'. contradiction.
    + intros (_ & G & _). lia.
Qed.

(** ** the loop *)
Notation zero_buf := (repeat 0%Z (sig_bytes lg)).
Definition accb (z : list Cx * list Cx) : bool := match post RF exact_table lg B t0 t1 b2 (fst z) (snd z) zero_buf with Ok (true, _) => true | _ => false end.
Definition tstb (s2 : list Z) (z : list Cx * list Cx) : bool := match post RF exact_table lg B t0 t1 b2 (fst z) (snd z) zero_buf with Ok (true, e) => body_is lg s2 e | _ => false end.
Notation E k e := (ex RF (fun x : R => x) (thx sm) k p e).
Lemma loop_avg s2 k m : forall n sig, (sig_bytes lg <= length sig)%nat -> (36 * k * N * m <= n)%nat ->
  avg n (fun w => ind (ends_with (body_is lg s2) (@run RF sm _ k (stream w) (lp RF exact_table lg B T t0 t1 b2 m sig) 0))) =
  E k (fun z => ind (tstb s2 z)) * geo (E k (fun z => ind (negb (accb z)))) m.
Proof.
  destruct prog_law as (L & Hd & Hr). induction m as [|m IH]; intros n sig Ls Hn; [cbn [lp run ends_with geo]; rewrite Rmult_0_r; exact (avg_const n 0)|]. cbn [lp geo].
  set (P1 := E k (fun z => ind (tstb s2 z))) in *. set (Rj := E k (fun z => ind (negb (accb z)))) in *.
  rewrite (avg_bind RF sm (fun x => x) (fun x => x) (thx sm) k p _ (body_is lg s2) (2 * N) n (36 * k * N * m) (fun z => ind (tstb s2 z) + (P1 * geo Rj m) * ind (negb (accb z))) L Hd).
  - transitivity (P1 + P1 * geo Rj m * Rj); [rewrite ex_plus, ex_scal; reflexivity|ring].
  - intros z Hz n' Hn'. destruct (Hr z Hz) as (a & Da & ->). destruct (post_val a Da) as (body & Lb & HP & HE). cbn [fst snd].
    destruct (HP sig Ls) as (e & Ee & Le & Be). destruct (HP zero_buf ltac:(rewrite repeat_length; apply le_n)) as (e' & Ee' & Le' & Be').
    unfold tstb, accb. cbn [fst snd]. rewrite Ee'. rewrite Ee. cbn [P_prog.lift pbind fst snd].
    destruct (signable_dec lg c h (vec a)) as [G|G]; cbn [negb ind].
    + cbn [run ends_with]. rewrite (avg_const n' (ind (body_is lg s2 e))). unfold body_is. rewrite (Be G), (Be' G). ring.
    + rewrite IH by (try exact Hn'; lia). ring.
  - lia.
Qed.
(** the loop ends within m passes with a body that passes the test t *)
Definition tstt (t : list bool -> bool) (z : list Cx * list Cx) : bool := match post RF exact_table lg B t0 t1 b2 (fst z) (snd z) zero_buf with Ok (true, e) => t (body_bits lg e) | _ => false end.
Lemma loop_bits t k m : forall n sig, (sig_bytes lg <= length sig)%nat -> (36 * k * N * m <= n)%nat ->
  avg n (fun w => ind (ends_with (fun e => t (body_bits lg e)) (@run RF sm _ k (stream w) (lp RF exact_table lg B T t0 t1 b2 m sig) 0))) =
  E k (fun z => ind (tstt t z)) * geo (E k (fun z => ind (negb (accb z)))) m.
Proof.
  destruct prog_law as (L & Hd & Hr). induction m as [|m IH]; intros n sig Ls Hn; [cbn [lp run ends_with geo]; rewrite Rmult_0_r; exact (avg_const n 0)|]. cbn [lp geo].
  set (P1 := E k (fun z => ind (tstt t z))) in *. set (Rj := E k (fun z => ind (negb (accb z)))) in *.
  rewrite (avg_bind RF sm (fun x => x) (fun x => x) (thx sm) k p _ (fun e => t (body_bits lg e)) (2 * N) n (36 * k * N * m) (fun z => ind (tstt t z) + (P1 * geo Rj m) * ind (negb (accb z))) L Hd).
  - transitivity (P1 + P1 * geo Rj m * Rj); [rewrite ex_plus, ex_scal; reflexivity|ring].
  - intros z Hz n' Hn'. destruct (Hr z Hz) as (a & Da & ->). destruct (post_val a Da) as (body & Lb & HP & HE). cbn [fst snd].
    destruct (HP sig Ls) as (e & Ee & Le & Be). destruct (HP zero_buf ltac:(rewrite repeat_length; apply le_n)) as (e' & Ee' & Le' & Be').
    unfold tstt, accb. cbn [fst snd]. rewrite Ee'. rewrite Ee. cbn [P_prog.lift pbind fst snd].
    destruct (signable_dec lg c h (vec a)) as [G|G]; cbn [negb ind].
    + cbn [run ends_with]. rewrite (avg_const n' (ind (t (body_bits lg e)))). rewrite (Be G), (Be' G). ring.
    + rewrite IH by (try exact Hn'; lia). ring.
  - lia.
Qed.
(** ** one pass *)
Definition Pd (k : nat) (s : list Z * list Z) : R := E k (fun z => ind (draws lg B t0 t1 (Ok (fst z, snd z, 0%nat)) s)).
Lemma Pd_prob k n s : (36 * k * N <= n)%nat -> prob n (fun w => draws lg B t0 t1 (ff_sampling RF exact_table k lg 0 t0 t1 T 0 sm (stream w) 0) s) = Pd k s.
Proof.
  intros Hn. destruct prog_law as (L & Hd & Hr). assert (Hn' : (18 * k * (2 * N) <= n)%nat) by lia. etransitivity; [|exact (prob_ex RF sm (fun x => x) (fun x => x) (thx sm) k p (fun z => draws lg B t0 t1 (Ok (fst z, snd z, 0%nat)) s) (2 * N) n L Hd Hn')].
  apply prob_ext. intros w. rewrite run_ff. destruct (@run RF sm _ k (stream w) p 0) as [[z m]| |]; reflexivity.
Qed.
Definition sel (s2 : list Z) (s : list Z * list Z) : bool := if list_eq_dec Z.eq_dec (snd s) s2 then true else false.
Lemma lsum_abs {X} (b : X -> bool) (u : X -> R) L : Rabs (lsum (fun s => ind (b s) * u s) L) <= lsum (fun s => ind (b s) * Rabs (u s)) L.
Proof.
  induction L as [|s L IH]; unfold lsum in *; cbn [fold_right]; [rewrite Rabs_R0; lra|]. eapply Rle_trans; [apply Rabs_triang|]. apply Rplus_le_compat; [|exact IH].
  rewrite Rabs_mult. rewrite (Rabs_pos_eq (ind _)) by (destruct (b s); cbn [ind]; lra). apply Rle_refl.
Qed.
Lemma lsum_lin {X} (b : X -> bool) (u v : X -> R) r r' L : lsum (fun s => r * (ind (b s) * u s)) L - lsum (fun s => r' * (ind (b s) * v s)) L = lsum (fun s => ind (b s) * (u s * r - v s * r')) L.
Proof. induction L as [|s L IH]; unfold lsum in *; cbn [fold_right]; [ring|]. rewrite <- IH. ring. Qed.
Lemma lsum_swap {X Y} (b : Y -> X -> bool) (u : X -> R) (L : list X) (M : list Y) : lsum (fun y => lsum (fun x => ind (b y x) * u x) L) M = lsum (fun x => lsum (fun y => ind (b y x)) M * u x) L.
Proof.
  induction M as [|y M IH].
  - unfold lsum at 1. cbn [fold_right]. rewrite (lsum_ext _ (fun _ => 0 * 0)) by (intros; unfold lsum; cbn [fold_right]; ring). rewrite lsum_scal. ring.
  - unfold lsum at 1. cbn [fold_right]. fold (lsum (fun y => lsum (fun x => ind (b y x) * u x) L) M). rewrite IH, <- lsum_plus. apply lsum_ext. intros x _. unfold lsum. cbn [fold_right]. ring.
Qed.
Section List.
Variable LA : list (list Z * list Z).
Hypothesis NA : NoDup LA.
Hypothesis DA : forall s, In s LA <-> signable lg c h s.
Lemma pick a (f0 : list Z * list Z -> R) : pairN a -> lsum (fun s => f0 s * ind (draws lg B t0 t1 (Ok (V (fst a), V (snd a), 0%nat)) s)) LA = if signable_dec lg c h (vec a) then f0 (vec a) else 0.
Proof.
  intros Da. rewrite (lsum_ext _ (fun s => ind (if pair_dec s (vec a) then true else false) * f0 s)).
  - rewrite lsum_pick by exact NA. destruct (in_dec pair_dec (vec a) LA) as [I|I], (signable_dec lg c h (vec a)) as [G|G]; try reflexivity; exfalso; [apply G, DA, I|apply I, DA, G].
  - intros s Hs. apply DA in Hs. destruct Hs as ((S0 & S1 & _) & _). rewrite (draws_val a s 0 Da (conj S0 S1)). ring.
Qed.
Lemma tst_sum s2 k : E k (fun z => ind (tstb s2 z)) = lsum (fun s => ind (sel s2 s) * Pd k s) LA.
Proof.
  destruct prog_law as (L & Hd & Hr). unfold Pd.
  rewrite (lsum_ext _ (fun s => E k (fun z => ind (sel s2 s) * ind (draws lg B t0 t1 (Ok (fst z, snd z, 0%nat)) s)))) by (intros; rewrite ex_scal; reflexivity).
  rewrite <- (ex_lsum RF (fun x : R => x) (thx sm) k p (fun s z => ind (sel s2 s) * ind (draws lg B t0 t1 (Ok (fst z, snd z, 0%nat)) s)) LA). apply ex_ext. intros z Hz. destruct (Hr z Hz) as (a & Da & ->). cbn [fst snd].
  etransitivity; [|symmetry; exact (pick a (fun s => ind (sel s2 s)) Da)]. destruct (post_val a Da) as (body & Lb & HP & HE). destruct (HP zero_buf ltac:(rewrite repeat_length; apply le_n)) as (e & Ee & Le & Be).
  unfold tstb. cbn [fst snd]. rewrite Ee. destruct (signable_dec lg c h (vec a)) as [G|G]; [|reflexivity]. f_equal. unfold body_is, sel. rewrite (Be G), (HE G).
  destruct (list_eq_dec Z.eq_dec (snd (vec a)) s2) as [X|X]; destruct (list_eq_dec Bool.bool_dec _ _) as [Y|Y]; try reflexivity.
  - exfalso. apply Y. rewrite X. reflexivity.
  - exfalso. apply X. exact (encs_inj _ _ _ _ Y).
Qed.
Notation wire s := (encs (snd s) ++ repeat false (Z.to_nat (body_len lg - tot (snd s)))).
Lemma bits_sum t k : E k (fun z => ind (tstt t z)) = lsum (fun s => ind (t (wire s)) * Pd k s) LA.
Proof.
  destruct prog_law as (L & Hd & Hr). unfold Pd.
  rewrite (lsum_ext _ (fun s => E k (fun z => ind (t (wire s)) * ind (draws lg B t0 t1 (Ok (fst z, snd z, 0%nat)) s)))) by (intros; rewrite ex_scal; reflexivity).
  rewrite <- (ex_lsum RF (fun x : R => x) (thx sm) k p (fun s z => ind (t (wire s)) * ind (draws lg B t0 t1 (Ok (fst z, snd z, 0%nat)) s)) LA). apply ex_ext. intros z Hz. destruct (Hr z Hz) as (a & Da & ->). cbn [fst snd].
  etransitivity; [|symmetry; exact (pick a (fun s => ind (t (wire s))) Da)]. destruct (post_val a Da) as (body & Lb & HP & HE). destruct (HP zero_buf ltac:(rewrite repeat_length; apply le_n)) as (e & Ee & Le & Be).
  unfold tstt. cbn [fst snd]. rewrite Ee. destruct (signable_dec lg c h (vec a)) as [G|G]; [|reflexivity]. rewrite (Be G), (HE G). reflexivity.
Qed.
Lemma rej_sum k : E k (fun z => ind (negb (accb z))) = E k (fun _ => 1) - lsum (Pd k) LA.
Proof.
  destruct prog_law as (L & Hd & Hr). unfold Pd. rewrite <- (ex_lsum RF (fun x : R => x) (thx sm) k p (fun s z => ind (draws lg B t0 t1 (Ok (fst z, snd z, 0%nat)) s)) LA).
  enough (X : E k (fun _ => 1) = E k (fun z => ind (negb (accb z))) + E k (fun z => lsum (fun s => ind (draws lg B t0 t1 (Ok (fst z, snd z, 0%nat)) s)) LA)) by (rewrite X; ring).
  rewrite <- ex_plus. apply ex_ext. intros z Hz. destruct (Hr z Hz) as (a & Da & ->). cbn [fst snd].
  assert (PK := pick a (fun _ => 1) Da). rewrite (lsum_ext _ (fun s => ind (draws lg B t0 t1 (Ok (V (fst a), V (snd a), 0%nat)) s))) in PK by (intros s0 _; apply Rmult_1_l).
  etransitivity; [|apply f_equal; symmetry; exact PK].
  destruct (post_val a Da) as (body & Lb & HP & HE). destruct (HP zero_buf ltac:(rewrite repeat_length; apply le_n)) as (e & Ee & Le & Be).
  unfold accb. cbn [fst snd]. rewrite Ee. destruct (signable_dec lg c h (vec a)); cbn [negb ind]; ring.
Qed.
End List.

Definition dlt (k : nat) : R := INR (2 * N) * (/ 2 ^ 34 + (11 / 12) ^ k).
Lemma end_prob k : 1 - dlt k <= E k (fun _ => 1) <= 1.
Proof.
  destruct prog_law as (L & Hd & Hr). assert (X1 := prob_ex RF sm (fun x => x) (fun x => x) (thx sm) k p (fun _ => true) (2 * N) (18 * k * (2 * N)) L Hd (le_n _)). cbn [ind] in X1.
  assert (X := prob_ends RF sm (fun x => x) (fun x => x) (thx sm) k (18 * k * (2 * N)) (2 * N) p L Hd (le_n _)). unfold dlt. assert (0 < / 2 ^ 34) by (apply Rinv_0_lt_compat, pow_lt; lra).
  assert (0 <= INR (2 * N)) by apply pos_INR. assert (0 <= INR (2 * N) * / 2 ^ 34) by (apply Rmult_le_pos; lra). rewrite Rmult_plus_distr_l. rewrite X1 in X. split; [|apply X]. eapply Rle_trans; [|apply X]. lra.
Qed.
Lemma loop_dist : exists omega W WA, 0 < W /\ total (coset lg c h) (fun s => wt s) W /\ total (signable lg c h) (fun s => wt s) WA /\
  (forall s2, total (fun s1 => signable lg c h (s1, s2)) (fun s1 => wt (s1, s2)) (omega s2)) /\
  (0 < WA -> forall k m n sig L, (sig_bytes lg <= length sig)%nat -> (36 * k * N * m <= n)%nat -> NoDup L ->
    lsum (fun s2 => Rabs (prob n (fun w => ends_with (body_is lg s2) (sign_loop RF exact_table m k lg B T t0 t1 sm b2 (stream w) 0 sig)) - omega s2 / WA)) L
      <= 4 * dlt k / (WA / W) + (1 - WA / W + dlt k) ^ m).
Proof.
  destruct (coset_gauss lg Hlg f g F_ G_ Lf Lg LF LG HN HGS Hsm BF BG Sf Sg HI h0 h Lh0 HK B T0 T LT0 HB HT c t0 t1 Lc Hc Ht) as (W & W0 & TW & TV).
  destruct (signable_list lg c h) as (LA & NA & DA). destruct prog_law as (L & Hd & Hr).
  assert (Wp : forall s, 0 <= wt s) by (intros; left; apply exp_pos).
  exists (fun s2 => lsum (fun s => ind (sel s2 s) * wt s) LA), W, (lsum (fun s => wt s) LA). split; [exact W0|]. split; [exact TW|]. split; [apply total_list; [exact pair_dec|exact NA|exact DA|exact Wp]|]. split.
  - intros s2. set (L2 := map fst (filter (sel s2) LA)).
    assert (E2 : lsum (fun s => ind (sel s2 s) * wt s) LA = lsum (fun s1 => wt (s1, s2)) L2).
    { unfold L2. clear. induction LA as [|s LA IH]; [reflexivity|]. unfold lsum in *. cbn [fold_right filter]. rewrite IH. unfold sel at 1 3. destruct (list_eq_dec Z.eq_dec (snd s) s2) as [<-|D]; cbn [ind map fold_right]; [cbn [fst snd]; ring|ring]. }
    rewrite E2. apply (total_list (list_eq_dec Z.eq_dec)); [| |intros; left; apply exp_pos].
    + unfold L2. clear E2 L2 DA. induction NA as [|s LA' Hs NA' IH]; [constructor|]. cbn [filter]. destruct (sel s2 s) eqn:Es; [|exact IH]. cbn [map]. constructor; [|exact IH]. intros Hin. apply in_map_iff in Hin.
      destruct Hin as (s' & Ef & Hs'). apply filter_In in Hs'. destruct Hs' as [Hs' Es']. apply Hs. unfold sel in Es, Es'. destruct (list_eq_dec Z.eq_dec (snd s) s2); [|discriminate]. destruct (list_eq_dec Z.eq_dec (snd s') s2); [|discriminate].
      replace s with s'; [exact Hs'|]. destruct s, s'. cbn [fst snd] in *. congruence.
    + intros s1. unfold L2. rewrite in_map_iff. split.
      * intros (s & <- & Hs). apply filter_In in Hs. destruct Hs as [Hs Es]. unfold sel in Es. destruct (list_eq_dec Z.eq_dec (snd s) s2) as [<-|]; [|discriminate]. apply DA. destruct s. exact Hs.
      * intros G. exists (s1, s2). split; [reflexivity|]. apply filter_In. split; [apply DA; exact G|]. unfold sel. cbn [snd]. destruct (list_eq_dec Z.eq_dec s2 s2); [reflexivity|contradiction].
  - intros WA0 k m n sig L0 Ls Hn N0. set (WA := lsum (fun s => wt s) LA) in *. set (phi := E k (fun _ => 1)). set (g0 := geo (phi - lsum (Pd k) LA) m).
    assert (I0 : forall b : bool, 0 <= ind b) by (intros []; cbn [ind]; lra).
    assert (PP : forall s, 0 <= Pd k s) by (intros s; apply (ex_pos RF sm (fun x => x) (fun x => x) (thx sm) k p _ L); intros z; apply I0).
    assert (RJ := ex_pos RF sm (fun x => x) (fun x => x) (thx sm) k p (fun z => ind (negb (accb z))) L (fun z => I0 (negb (accb z)))). cbv beta in RJ. rewrite (rej_sum LA NA DA) in RJ. fold phi in RJ.
    assert (T1 : lsum (fun s => Rabs (Pd k s - wt s / W)) LA <= dlt k).
    { eapply Rle_trans; [|apply (TV k (36 * k * N)%nat LA (le_n _) NA)]; [|rewrite Forall_forall; intros s Hs; apply DA in Hs; apply Hs]. right. apply lsum_ext. intros s _. rewrite Pd_prob by apply le_n. reflexivity. }
    assert (RJ' : lsum (Pd k) LA <= phi) by lra.
    assert (CD := cond_dist (Pd k) (fun s => wt s) LA W WA phi (dlt k) m PP W0 WA0 eq_refl T1 (end_prob k) RJ'). fold g0 in CD.
    eapply Rle_trans; [|exact CD].
    apply Rle_trans with (lsum (fun s2 => lsum (fun s => ind (sel s2 s) * Rabs (Pd k s * g0 - wt s / WA)) LA) L0).
    + apply lsum_le. intros s2 _.
      assert (EP : prob n (fun w => ends_with (body_is lg s2) (sign_loop RF exact_table m k lg B T t0 t1 sm b2 (stream w) 0 sig)) = lsum (fun s => ind (sel s2 s) * Pd k s) LA * g0).
      { rewrite prob_avg. unfold g0, phi. rewrite <- (tst_sum LA NA DA), <- (rej_sum LA NA DA), <- (loop_avg s2 k m n sig Ls Hn). apply avg_ext. intros w _ _. rewrite run_lp. reflexivity. }
      rewrite EP. eapply Rle_trans; [|exact (lsum_abs (sel s2) (fun s => Pd k s * g0 - wt s * / WA) LA)]. right. apply f_equal.
      rewrite <- (lsum_lin (sel s2) (Pd k) (fun s => wt s) g0 (/ WA) LA), !lsum_scal. apply f_equal2; apply Rmult_comm.
    + apply Rle_trans with (lsum (fun s => lsum (fun s2 => ind (sel s2 s)) L0 * Rabs (Pd k s * g0 - wt s / WA)) LA).
      * right. exact (lsum_swap sel (fun s => Rabs (Pd k s * g0 - wt s / WA)) LA L0).
      * apply lsum_le. intros s _. rewrite <- (Rmult_1_l (Rabs (Pd k s * g0 - wt s / WA))) at 2. apply Rmult_le_compat_r; [apply Rabs_pos|].
        rewrite (lsum_ext _ (fun x => ind (if list_eq_dec Z.eq_dec x (snd s) then true else false) * 1)).
        -- rewrite lsum_pick by exact N0. destruct (in_dec _ _ _); lra.
        -- intros x _. unfold sel. destruct (list_eq_dec Z.eq_dec (snd s) x), (list_eq_dec Z.eq_dec x (snd s)); cbn [ind]; try ring; exfalso; congruence.
Qed.
Lemma loop_test LA t : NoDup LA -> (forall s, In s LA <-> signable lg c h s) -> forall k m n sig, (sig_bytes lg <= length sig)%nat -> (1 <= m)%nat -> (36 * k * N * m <= n)%nat ->
  lsum (fun s => ind (t (encs (snd s) ++ repeat false (Z.to_nat (body_len lg - tot (snd s))))) * prob n (fun w => draws lg B t0 t1 (ff_sampling RF exact_table k lg 0 t0 t1 T 0 sm (stream w) 0) s)) LA
    <= prob n (fun w => ends_with (fun e => t (body_bits lg e)) (sign_loop RF exact_table m k lg B T t0 t1 sm b2 (stream w) 0 sig)).
Proof.
  intros NA DA k m n sig Ls Hm Hn. destruct prog_law as (L & Hd & Hr). destruct m as [|m]; [lia|]. assert (Hn1 : (36 * k * N <= n)%nat) by lia.
  assert (I0 : forall b : bool, 0 <= ind b) by (intros []; cbn [ind]; lra).
  assert (RJ := ex_pos RF sm (fun x => x) (fun x => x) (thx sm) k p (fun z => ind (negb (accb z))) L (fun z => I0 (negb (accb z)))). cbv beta in RJ.
  assert (PA := ex_pos RF sm (fun x => x) (fun x => x) (thx sm) k p (fun z => ind (tstt t z)) L (fun z => I0 (tstt t z))). cbv beta in PA.
  rewrite (lsum_ext _ (fun s => ind (t (encs (snd s) ++ repeat false (Z.to_nat (body_len lg - tot (snd s))))) * Pd k s)) by (intros s _; f_equal; apply Pd_prob, Hn1). rewrite <- (bits_sum LA NA DA).
  replace (prob n _) with (E k (fun z => ind (tstt t z)) * geo (E k (fun z => ind (negb (accb z)))) (S m)).
  - rewrite <- (Rmult_1_r (E k (fun z => ind (tstt t z)))) at 1. apply Rmult_le_compat_l; [exact PA|]. cbn [geo]. assert (0 <= E k (fun z => ind (negb (accb z))) * geo (E k (fun z => ind (negb (accb z)))) m) by (apply Rmult_le_pos; [exact RJ|apply geo_pos; exact RJ]). lra.
  - rewrite prob_avg. rewrite <- (loop_bits t k (S m) n sig Ls Hn). apply avg_ext. intros w _ _. rewrite run_lp. reflexivity.
Qed.
End Key.
