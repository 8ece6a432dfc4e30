(** P_fgsx.v -- the keys that key generation accepts in rounded arithmetic. *)
From Verif Require Import Base Ring Poly Spec SpecR SpecF M_ff M_ntt M_codec P_codec P_keys M_sig P_comp M_verify M_float M_exact P_exact M_samp M_fft M_ntru P_ntru M_tree P_brv P_cplx P_fft P_treex P_sign P_l2 P_err P_ferr P_near P_ieee P_float P_fnorm P_fsign P_fsv P_leaf P_key P_live P_signx P_signv P_ntru2 P_sigx P_fkey P_fgs P_leaf P_ntru2.
From Verif Require P_gs.
From Coq Require Import Ring_theory Ring Lra Psatz.
Open Scope R_scope.

Lemma l1_le l b : (0 <= b)%Z -> Forall (fun x => Z.abs x <= b)%Z l -> (l1 l <= Z.of_nat (length l) * b)%Z.
Proof. intros Hb. induction 1 as [|x l Hx _ IH]; cbn [l1 length]; [lia|]. rewrite Nat2Z.inj_succ. nia. Qed.
(** a pair (f, g) completed by 32 bit polynomials (F, G) is not close to zero at any root *)
Lemma ntru_row_low lg f g F_ G_ i : (lg <= 10)%nat -> length f = (2 ^ lg)%nat -> length g = (2 ^ lg)%nat -> length F_ = (2 ^ lg)%nat -> length G_ = (2 ^ lg)%nat ->
  ntru (2 ^ lg) f g F_ G_ -> Forall (fun x => Z.abs x <= 2147483648)%Z F_ -> Forall (fun x => Z.abs x <= 2147483648)%Z G_ -> 1 / 1000000000000000000 <= row_norm lg f g i.
Proof.
  intros Hlg Lf Lg LF LG HN BF BG. assert (B := pow_1024 lg Hlg).
  assert (S : forall a, length a = (2 ^ lg)%nat -> Forall (fun x => Z.abs x <= 2147483648)%Z a -> Cm (poly_at lg a i) <= 2199023255552).
  { intros a La Ba. eapply Rle_trans; [apply horner_l1, Cm_point|]. apply IZR_le. eapply Z.le_trans; [apply (l1_le a 2147483648); [lia|exact Ba]|]. rewrite La. nia. }
  assert (SF := S F_ LF BF). assert (SG := S G_ LG BG). unfold row_norm. assert (E := ntru_ev lg f g F_ G_ HN i). rewrite <- !poly_at_ev in E by assumption.
  assert (Q : Cm (Cz q) = 12289) by (rewrite Cm_Cz; reflexivity). rewrite <- E in Q. assert (K := Cm_sub (Cmul (poly_at lg f i) (poly_at lg G_ i)) (Cmul (poly_at lg g i) (poly_at lg F_ i))). rewrite Q, !Cm_mul in K.
  rewrite <- !Cm_sq. assert (P1 := Cm_pos (poly_at lg f i)). assert (P2 := Cm_pos (poly_at lg g i)). set (a := Cm (poly_at lg f i)) in *. set (b := Cm (poly_at lg g i)) in *.
  assert (K1 : a * Cm (poly_at lg G_ i) <= a * 2199023255552) by (apply Rmult_le_compat_l; lra). assert (K2 : b * Cm (poly_at lg F_ i) <= b * 2199023255552) by (apply Rmult_le_compat_l; lra).
  assert (AB : 5 / 1000000000 <= a + b) by lra. assert (AB2 : 5 / 1000000000 * (5 / 1000000000) <= (a + b) * (a + b)) by (apply Rmult_le_compat; lra).
  assert (D := Rle_0_sqr (a - b)). unfold Rsqr in D. lra.
Qed.

Section Gen.
Variable F : fops.
Variable fin : D F -> Prop.
Variable val : D F -> R.
Hypothesis A : accurate F fin val.
Hypothesis SE : small_exact F.
Variable ztab : list (D F * D F).
Hypothesis HZ : table_near F fin val ztab.
Lemma gs_test lg f g v : (lg <= 10)%nat -> length f = (2 ^ lg)%nat -> length g = (2 ^ lg)%nat -> Forall (fun x => Z.abs x <= 200)%Z f -> Forall (fun x => Z.abs x <= 200)%Z g ->
  gram_schmidt_norm F ztab lg f g = Ok v -> fgt F v (gs_norm_threshold F) = false ->
  (sqnorm f + sqnorm g <= 16822)%Z /\ ((forall i, (i < 2 ^ lg)%nat -> 1 / 10 ^ 18 <= row_norm lg f g i) -> gs_norm lg f g <= 168224122 / 10000).
Proof.
  intros Hlg Lf Lg Bf Bg HV HT. rewrite Forall_forall in Bf, Bg.
  assert (Bf' : forall i, (i < 2 ^ lg)%nat -> (Z.abs (nth i f 0%Z) <= 200)%Z) by (intros i Hi; apply Bf, nth_In; lia).
  assert (Bg' : forall i, (i < 2 ^ lg)%nat -> (Z.abs (nth i g 0%Z) <= 200)%Z) by (intros i Hi; apply Bg, nth_In; lia).
  split; [exact (proj1 (gs_first F fin val A ztab HZ lg Hlg f g Lf Lg Bf' Bg' v HV HT))|]. intros HR. apply (gs_accept F fin val A ztab HZ lg Hlg f g Lf Lg Bf' Bg' v HV HT).
  intros i Hi. eapply Rle_trans; [|apply HR, Hi]. right. simpl. field.
Qed.
Lemma gen_gs_float fuel sfuel lg rng pos f0 g0 F0 G0 f g F_ G_ pos' : byte_stream rng -> falcon_lg lg ->
  length f0 = (2 ^ lg)%nat -> length g0 = (2 ^ lg)%nat -> length F0 = (2 ^ lg)%nat -> length G0 = (2 ^ lg)%nat ->
  ntru_gen F ztab fuel sfuel lg rng pos f0 g0 F0 G0 = Ok (f, g, F_, G_, pos') ->
  (sqnorm f + sqnorm g <= 16822)%Z /\ (ntru (2 ^ lg) f g F_ G_ -> gs_norm lg f g <= 168224122 / 10000).
Proof.
  intros Hg Hlg L1 L2 L3 L4 H. apply (ntru_gen_ok F ztab) in H; try assumption. destruct H as (Lf & Lg & Bf & Bg & _ & (v & HV & HT) & F' & G' & LF & LG & _ & EF & EG).
  assert (B : forall l, Forall (coeff_bound lg) l -> Forall (fun x => Z.abs x <= 200)%Z l) by (intros l; apply Forall_impl; intros x Hx; destruct (coeff_small lg x Hlg Hx); lia).
  destruct (gs_test lg f g v (f10 lg Hlg) Lf Lg (B f Bf) (B g Bg) HV HT) as [R1 R2]. split; [exact R1|]. intros HN. apply R2. intros i Hi. eapply Rle_trans; [|apply (ntru_row_low lg f g F_ G_ i (f10 lg Hlg) Lf Lg)].
  - right. simpl. field.
  - rewrite EF, map_length. exact LF.
  - rewrite EG, map_length. exact LG.
  - exact HN.
  - rewrite EF. apply Forall_forall. intros x Hx. apply in_map_iff in Hx. destruct Hx as (y & <- & _). unfold i32. assert (M := Z.mod_pos_bound (get_si y + 2147483648) 4294967296 ltac:(lia)). lia.
  - rewrite EG. apply Forall_forall. intros x Hx. apply in_map_iff in Hx. destruct Hx as (y & <- & _). unfold i32. assert (M := Z.mod_pos_bound (get_si y + 2147483648) 4294967296 ltac:(lia)). lia.
Qed.
End Gen.
Lemma float_keygen_sign_verify2 F fin val : accurate F fin val -> small_exact F -> forall ztab, table_near F fin val ztab ->
  forall fk sfk fuel sfuel lg rngk rng pk0 sk0 pk sk xof msg sig sig' b f g F_ G_ p, falcon_lg lg ->
  (forall a, byte_stream (xof a)) -> byte_stream rngk -> byte_stream rng ->
  length pk0 = pkey_len lg -> length sk0 = skey_len lg -> bytes sig -> (sig_bytes lg + 2 <= length sig)%nat ->
  keygen_bytes F ztab fk sfk lg pk0 sk0 rngk = Ok (pk, sk) ->
  ntru_gen F ztab fk sfk lg rngk 0 (repeat 0%Z (2 ^ lg)) (repeat 0%Z (2 ^ lg)) (repeat 0%Z (2 ^ lg)) (repeat 0%Z (2 ^ lg)) = Ok (f, g, F_, G_, p) ->
  Forall (fits (skey_modulus lg)) f -> Forall (fits (skey_modulus lg)) g -> Forall (fits 256) F_ ->
  (sqnorm F_ <= 2250000)%Z -> (sqnorm G_ <= 2250000)%Z ->
  values_le lg f 400 -> values_le lg g 400 -> values_le lg F_ 6000 -> values_le lg G_ 6000 -> values_ge lg f (1 / 1000) ->
  sign F ztab fuel sfuel xof lg sk msg sig rng = Ok (b, sig') ->
  b = true /\ exists h, decode_pkey lg pk (repeat 0%Z (2 ^ lg)) = Ok (true, h) /\ sound_signature lg xof pk msg sig sig' h (map rng (seq 0 40)).
Proof.
  intros A SE ztab HZ fk sfk fuel sfuel lg rngk rng pk0 sk0 pk sk xof msg sig sig' b f g F_ G_ p Hlg Hx Hk Hr Lpk Lsk Bs Ls HK HG Ff Fg FF NF NG.
  destruct (gen_gs_float F fin val A SE ztab HZ fk sfk lg rngk 0 _ _ _ _ f g F_ G_ p Hk Hlg (repeat_length _ _) (repeat_length _ _) (repeat_length _ _) (repeat_length _ _) HG) as [S _].
  assert (S1 := sqnorm_pos f). assert (S2 := sqnorm_pos g).
  apply (float_keygen_sign_verify F fin val A SE ztab HZ fk sfk fuel sfuel lg rngk rng pk0 sk0 pk sk xof msg sig sig' b f g F_ G_ p); try assumption; lia.
Qed.
Lemma k_gs_sat : Forall (fun x => Z.abs x <= 200)%Z kf /\ Forall (fun x => Z.abs x <= 200)%Z kg /\ (forall i, 1 / 10 ^ 18 <= row_norm 9 kf kg i) /\
  gram_schmidt_norm RF exact_table 9 kf kg = Ok (gs_norm 9 kf kg) /\ fgt RF (gs_norm 9 kf kg) (gs_norm_threshold RF) = false.
Proof.
  destruct k_all as (L1 & L2 & _). destruct k_sq as (Q1 & Q2 & _).
  assert (B : forall l, (sqnorm l <= 17161)%Z -> Forall (fun x => Z.abs x <= 200)%Z l) by (intros l Hl; apply Forall_forall; intros x Hx; apply (sqnorm_coeff l x) in Hx; nia).
  split; [apply B, Q1|]. split; [apply B, Q2|]. split; [|split].
  - intros i. assert (R := k_row i). simpl. lra.
  - apply P_gs.gsn_ok; [lia|exact L1|exact L2|]. intros i _. assert (R := k_row i). lra.
  - assert (G := k_gs). rewrite threshold_val. cbn [fgt RF]. destruct (Rlt_dec (117 / 100 * (117 / 100) * 12289) (gs_norm 9 kf kg)); [lra|reflexivity].
Qed.
