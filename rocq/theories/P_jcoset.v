(** P_jcoset.v -- the vectors signing draws follow the discrete Gaussian on the coset of the message. *)
From Verif Require Import Base Ring Poly Spec SpecR SpecS SpecG SpecJ M_ff M_ntt M_ntt M_sig M_verify M_float M_exact M_samp M_fft M_ntru M_tree P_ntru P_exact P_cplx P_fft P_treex P_gs P_leaf P_sign P_signb P_signx P_signv P_norm P_normx P_dist P_joint P_gsum P_jprob P_jfin P_jkey P_jgauss P_coset.
From Verif Require P_ntt P_nttx P_verifyx P_key.
From Coq Require Import Lra.
Open Scope R_scope.

Lemma ft_emb_values lg (a : zpv (2 ^ lg)) : ft (emb a) = values lg (map Cz (zpl a)).
Proof.
  rewrite ft_values. f_equal. unfold emb. apply (@list_ext Cx Czero); [rewrite pl_length, map_length, pl_length; reflexivity|]. rewrite pl_length. intros i Hi.
  etransitivity; [apply nth_tab; exact Hi|]. rewrite (nth_indep _ Czero (Cz 0%Z)) by (rewrite map_length, pl_length; exact Hi). symmetry. apply (map_nth Cz (zpl a) 0%Z i).
Qed.
Lemma values_inj lg (Hl : (lg <= 10)%nat) a b : length a = (2 ^ lg)%nat -> length b = (2 ^ lg)%nat -> values lg (map Cz a) = values lg (map Cz b) -> a = b.
Proof.
  intros La Lb E. rewrite <- (pl_ofl Z 0%Z (2 ^ lg) a La), <- (pl_ofl Z 0%Z (2 ^ lg) b Lb) in E. rewrite <- !ft_emb_values in E. apply (ft_emb_inj lg Hl) in E.
  rewrite <- (pl_ofl Z 0%Z (2 ^ lg) a La), <- (pl_ofl Z 0%Z (2 ^ lg) b Lb), E. reflexivity.
Qed.

(** ** a set in bijection with another *)
Section Move.
Context {X Y : Type}.
Variables (dx : X -> Prop) (dy : Y -> Prop) (phi : X -> Y).
Hypothesis Hin : forall x, dx x -> dy (phi x).
Hypothesis Hinj : forall x x', dx x -> dx x' -> phi x = phi x' -> x = x'.
Hypothesis Hsur : forall y, dy y -> exists x, dx x /\ phi x = y.
Lemma move_list (L : list Y) : NoDup L -> Forall dy L -> exists K, NoDup K /\ Forall dx K /\ map phi K = L.
Proof.
  induction 1 as [|y L Hy NL IH]; intros D; [exists []; repeat split; constructor|]. inversion D as [|? ? Dy DL]. subst. destruct (IH DL) as (K & NK & DK & E). destruct (Hsur y Dy) as (x & Dx & Ex).
  exists (x :: K). split; [|split; [constructor; assumption|cbn; rewrite Ex, E; reflexivity]]. constructor; [|exact NK]. intros Hx. apply Hy. rewrite <- E, <- Ex. apply in_map. exact Hx.
Qed.
Lemma move_nodup (K : list X) : NoDup K -> Forall dx K -> NoDup (map phi K).
Proof.
  induction 1 as [|x K Hx NK IH]; intros D; [constructor|]. inversion D as [|? ? Dx DK]. subst. cbn [map]. constructor; [|apply IH; exact DK]. intros H. apply in_map_iff in H. destruct H as (x' & E & Hx').
  apply Hx. rewrite Forall_forall in DK. rewrite (Hinj x x' Dx (DK x' Hx') (eq_sym E)). exact Hx'.
Qed.
Lemma move_total (g : Y -> R) W : total dx (fun x => g (phi x)) W -> total dy g W.
Proof.
  intros T. split.
  - intros r (L & NL & DL & ->). destruct (move_list L NL DL) as (K & NK & DK & <-). change (lsum g (map phi K) <= W). rewrite lsum_map. apply (total_le dx); assumption.
  - intros b Hb. apply (total_ub dx (fun x => g (phi x)) W b T). intros K NK DK. rewrite <- (lsum_map g phi). apply Hb. exists (map phi K). split; [apply move_nodup; assumption|]. split; [|reflexivity].
    rewrite Forall_forall in *. intros y Hy. apply in_map_iff in Hy. destruct Hy as (x & <- & Hx). apply Hin, DK, Hx.
Qed.
End Move.

Section Key.
Variable lg : nat.
Hypothesis Hlg : falcon_lg lg.
Notation N := (2 ^ lg)%nat.
Variables f g F_ G_ : list Z.
Hypotheses (Lf : length f = N) (Lg : length g = N) (LF : length F_ = N) (LG : length G_ = N).
Hypothesis HN : ntru N f g F_ G_.
Hypothesis HGS : gs_norm lg f g <= 117 / 100 * (117 / 100) * 12289.
Hypothesis Hsm : lg = 10%nat \/ sigma_min RF lg * sigma_min RF lg * gs_norm lg f g <= sigma_value RF lg * sigma_value RF lg.
Hypotheses (BF : Forall (fun x => Z.abs x <= 27000)%Z F_) (BG : Forall (fun x => Z.abs x <= 27000)%Z G_).
Hypotheses (Sf : Forall smallq f) (Sg : Forall smallq g).
Hypothesis HI : is_poly_invertible lg f = Ok true.
Variables h0 h : list Z.
Hypothesis Lh0 : length h0 = N.
Hypothesis HK : compute_public_key lg f g h0 = Ok h.
Variables B T0 T : list (D RF * D RF).
Hypothesis LT0 : ((lg + 1) * N <= length T0)%nat.
Hypothesis HB : compute_matrix_B RF exact_table lg f g F_ G_ = Ok B.
Hypothesis HT : compute_falcon_tree RF exact_table lg B T0 = Ok T.
Notation pairN := (fun a : list Z * list Z => length (fst a) = N /\ length (snd a) = N).
Notation vec c a := (psub N (psub N c (negacyclic N (fst a) g)) (negacyclic N (snd a) G_), padd N (negacyclic N (fst a) f) (negacyclic N (snd a) F_)).
Notation wt s := (exp (- (IZR (sqnorm (fst s) + sqnorm (snd s)) / (2 * (sigma_value RF lg * sigma_value RF lg))))).

Lemma pk_facts : length h = N /\ (exists fi, length fi = N /\ modq (negacyclic N f fi) = onep N) /\ modq (negacyclic N h f) = modq g.
Proof.
  destruct (P_nttx.public_key_spec lg f g h0 Hlg Lf Lg Lh0 Sf Sg HI) as (h' & Eh & Lh & Ch & HP & _). assert (h' = h) by congruence. subst h'.
  split; [exact Lh|]. split; [exact (invertible_unit lg Hlg f Lf Sf HI)|exact HP].
Qed.
Lemma vec_in c a : length c = N -> pairN a -> coset lg c h (vec c a).
Proof.
  intros Lc [A0 A1]. destruct pk_facts as (Lh & U & HP). split; [apply tab_length|]. split; [apply tab_length|]. cbn [fst snd]. symmetry.
  apply (P_verifyx.sign_equation lg f g F_ G_ h (fst a) (snd a) c Hlg Lf Lg LF LG Lh HN U HP).
Qed.
Lemma vec_inj c a b : length c = N -> pairN a -> pairN b -> vec c a = vec c b -> a = b.
Proof.
  intros Lc [A0 A1] [B0 B1] E. destruct (coset_unique lg f g F_ G_ HN c (fst a) (snd a) (fst b) (snd b) Lc A0 A1 B0 B1 (f_equal fst E) (f_equal snd E)) as [X Y]. destruct a, b. cbn [fst snd] in *. subst. reflexivity.
Qed.
Lemma vec_sur c s : length c = N -> coset lg c h s -> exists a, pairN a /\ vec c a = s.
Proof.
  intros Lc (L1 & L2 & E). destruct pk_facts as (Lh & U & HP). destruct (coset_exists lg Hlg f g F_ G_ h Lf HN U HP c (fst s) (snd s) Lc L1 L2 E) as (z0 & z1 & Z0 & Z1 & E1 & E2).
  exists (z0, z1). split; [split; assumption|]. cbn [fst snd]. rewrite <- E1, <- E2. destruct s. reflexivity.
Qed.
Lemma draws_samples c t0 t1 k a r : length c = N -> sign_target RF exact_table lg B c = Ok (t0, t1) -> pairN a ->
  draws lg B t0 t1 (ff_sampling RF exact_table k lg 0 t0 t1 T 0 (sigma_min RF lg) r 0) (vec c a) = samples lg (ff_sampling RF exact_table k lg 0 t0 t1 T 0 (sigma_min RF lg) r 0) a.
Proof.
  intros Lc Ht Da. assert (lg10 : (lg <= 10)%nat) by (destruct Hlg as [->| ->]; lia).
  destruct (ff_sampling RF exact_table k lg 0 t0 t1 T 0 (sigma_min RF lg) r 0) as [[[z0 z1] p]| |] eqn:E; [|reflexivity|reflexivity].
  assert (HB' := HB). rewrite (matrix_B_ok lg lg10 f g F_ G_ Lf Lg LF LG) in HB'. apply (f_equal (fun r => match r with Ok v => v | _ => [] end)) in HB'. cbv beta iota in HB'.
  rewrite <- HB' in Ht |- *. rewrite target_ok in Ht by assumption.
  assert (X0 := f_equal (fun r => match r with Ok v => fst v | _ => [] end) Ht). assert (X1 := f_equal (fun r => match r with Ok v => snd v | _ => [] end) Ht). cbn [fst snd] in X0, X1. subst t0 t1.
  destruct (ffsamp_values lg k (sigma_min RF lg) r T _ _ 0 0 0 z0 z1 p lg10 ltac:(apply ft_length) ltac:(apply ft_length) E) as (a0 & a1 & L0 & L1 & -> & ->).
  unfold draws, samples. assert (V : forall l, length l = N -> values lg (map Cz l) = ft (emb (ofl Z 0%Z N l))) by (intros l Ll; rewrite ft_emb_values, (pl_ofl Z 0%Z N l Ll); reflexivity).
  rewrite (V a0 L0), (V a1 L1). rewrite (vector_ok lg lg10 f g F_ G_ c (ofl Z 0%Z N a0) (ofl Z 0%Z N a1) HN).
  assert (S0 : zpl (sv0 lg g G_ c (ofl Z 0%Z N a0) (ofl Z 0%Z N a1)) = fst (vec c (a0, a1))) by (unfold sv0; cbn [fst snd]; rewrite (v1_pl lg g G_ c a0 a1 Lc); reflexivity).
  assert (S1 : zpl (sv1 lg f F_ (ofl Z 0%Z N a0) (ofl Z 0%Z N a1)) = snd (vec c (a0, a1))) by (unfold sv1; cbn [fst snd]; rewrite (v2_pl lg f F_ a0 a1); reflexivity).
  rewrite (ft_emb_values lg (sv0 _ _ _ _ _ _)), (ft_emb_values lg (sv1 _ _ _ _ _)), S0, S1. rewrite <- (V a0 L0), <- (V a1 L1).
  apply Bool.eq_true_iff_eq. rewrite !Bool.andb_true_iff, !is_fft_ok. destruct Da as [D0 D1]. split.
  - intros [E0 E1]. apply (values_inj lg lg10) in E0; [|apply tab_length|apply tab_length]. apply (values_inj lg lg10) in E1; [|apply tab_length|apply tab_length].
    assert (EQ : (a0, a1) = a) by (apply (vec_inj c); [exact Lc|split; assumption|split; assumption|]; cbn [fst snd] in *; rewrite E0, E1; reflexivity). rewrite <- EQ. split; reflexivity.
  - intros [E0 E1]. apply (values_inj lg lg10) in E0; try assumption. apply (values_inj lg lg10) in E1; try assumption. subst a0 a1. split; reflexivity.
Qed.
Lemma coset_gauss c t0 t1 : length c = N -> Forall canon c -> sign_target RF exact_table lg B c = Ok (t0, t1) ->
  exists W, 0 < W /\ total (coset lg c h) (fun s => wt s) W /\
    forall k n L, (36 * k * N <= n)%nat -> NoDup L -> Forall (coset lg c h) L ->
      lsum (fun s => Rabs (prob n (fun w => draws lg B t0 t1 (ff_sampling RF exact_table k lg 0 t0 t1 T 0 (sigma_min RF lg) (stream w) 0) s) - wt s / W)) L
        <= INR (2 * N) * (/ 2 ^ 34 + (11 / 12) ^ k).
Proof.
  intros Lc Hc Ht. destruct (lattice_gauss lg Hlg f g F_ G_ Lf Lg LF LG HN HGS Hsm BF BG B T0 T LT0 HB HT c t0 t1 Lc Hc Ht) as (W & W0 & TW & TV). exists W. split; [exact W0|].
  assert (I1 := fun a => vec_in c a Lc). assert (I2 := fun a b => vec_inj c a b Lc). assert (I3 := fun s => vec_sur c s Lc).
  split; [apply (move_total pairN (coset lg c h) (fun a => vec c a) I1 I2 I3); exact TW|].
  intros k n L Hn NL DL. destruct (move_list pairN (coset lg c h) (fun a => vec c a) I3 L NL DL) as (K & NK & DK & <-).
  rewrite lsum_map. eapply Rle_trans; [|apply (TV k n K Hn NK DK)]. right. apply lsum_ext. intros a Ha. rewrite Forall_forall in DK. f_equal. f_equal. apply prob_ext. intros w. apply (draws_samples c t0 t1 k a (stream w) Lc Ht (DK a Ha)).
Qed.
End Key.

(** ** in terms of keys *)
Notation wt lg s := (exp (- (IZR (sqnorm (fst s) + sqnorm (snd s)) / (2 * (sigma_value RF lg * sigma_value RF lg))))).
Lemma key_gauss lg (Hlg : falcon_lg lg) f g F_ G_ h0 h B T0 T c t0 t1 : sound_key lg f g F_ G_ -> length h0 = (2 ^ lg)%nat -> compute_public_key lg f g h0 = Ok h ->
  ((lg + 1) * 2 ^ lg <= length T0)%nat -> compute_matrix_B RF exact_table lg f g F_ G_ = Ok B -> compute_falcon_tree RF exact_table lg B T0 = Ok T ->
  length c = (2 ^ lg)%nat -> Forall canon c -> sign_target RF exact_table lg B c = Ok (t0, t1) ->
  exists W, 0 < W /\ total (coset lg c h) (fun s => wt lg s) W /\
    forall k n L, (36 * k * 2 ^ lg <= n)%nat -> NoDup L -> Forall (coset lg c h) L ->
      lsum (fun s => Rabs (prob n (fun w => draws lg B t0 t1 (ff_sampling RF exact_table k lg 0 t0 t1 T 0 (sigma_min RF lg) (stream w) 0) s) - wt lg s / W)) L
        <= INR (2 * 2 ^ lg) * (/ 2 ^ 34 + (11 / 12) ^ k).
Proof.
  intros (Lf & Lg & LF & LG & HN & HGS & Hsm & BF & BG & Sf & Sg & HI) Lh HK LT HB HT Lc Hc Ht.
  exact (coset_gauss lg Hlg f g F_ G_ Lf Lg LF LG HN HGS Hsm BF BG Sf Sg HI h0 h Lh HK B T0 T LT HB HT c t0 t1 Lc Hc Ht).
Qed.
(** two secret keys of one public key *)
Lemma key_free lg (Hlg : falcon_lg lg) f g F_ G_ f' g' F_' G_' h0 h0' h B T0 T B' T0' T' c t0 t1 t0' t1' :
  sound_key lg f g F_ G_ -> sound_key lg f' g' F_' G_' -> length h0 = (2 ^ lg)%nat -> length h0' = (2 ^ lg)%nat ->
  compute_public_key lg f g h0 = Ok h -> compute_public_key lg f' g' h0' = Ok h ->
  ((lg + 1) * 2 ^ lg <= length T0)%nat -> compute_matrix_B RF exact_table lg f g F_ G_ = Ok B -> compute_falcon_tree RF exact_table lg B T0 = Ok T ->
  ((lg + 1) * 2 ^ lg <= length T0')%nat -> compute_matrix_B RF exact_table lg f' g' F_' G_' = Ok B' -> compute_falcon_tree RF exact_table lg B' T0' = Ok T' ->
  length c = (2 ^ lg)%nat -> Forall canon c -> sign_target RF exact_table lg B c = Ok (t0, t1) -> sign_target RF exact_table lg B' c = Ok (t0', t1') ->
  forall k n L, (36 * k * 2 ^ lg <= n)%nat -> NoDup L -> Forall (coset lg c h) L ->
    lsum (fun s => Rabs (prob n (fun w => draws lg B t0 t1 (ff_sampling RF exact_table k lg 0 t0 t1 T 0 (sigma_min RF lg) (stream w) 0) s) -
                         prob n (fun w => draws lg B' t0' t1' (ff_sampling RF exact_table k lg 0 t0' t1' T' 0 (sigma_min RF lg) (stream w) 0) s))) L
      <= INR (4 * 2 ^ lg) * (/ 2 ^ 34 + (11 / 12) ^ k).
Proof.
  intros K K' Lh Lh' HK HK' LT HB HT LT' HB' HT' Lc Hc Ht Ht' k n L Hn NL DL.
  destruct (key_gauss lg Hlg f g F_ G_ h0 h B T0 T c t0 t1 K Lh HK LT HB HT Lc Hc Ht) as (W & W0 & TW & TV).
  destruct (key_gauss lg Hlg f' g' F_' G_' h0' h B' T0' T' c t0' t1' K' Lh' HK' LT' HB' HT' Lc Hc Ht') as (W' & W0' & TW' & TV').
  rewrite <- (total_unique _ _ _ _ TW TW') in TV'. specialize (TV k n L Hn NL DL). specialize (TV' k n L Hn NL DL).
  replace (INR (4 * 2 ^ lg)) with (INR (2 * 2 ^ lg) + INR (2 * 2 ^ lg)) by (rewrite <- plus_INR; f_equal; lia). rewrite Rmult_plus_distr_r.
  eapply Rle_trans; [|apply Rplus_le_compat; [exact TV|exact TV']]. rewrite <- lsum_plus. apply lsum_le. intros s _.
  match goal with |- Rabs (?x - ?y) <= Rabs (?x - ?z) + Rabs _ => rewrite (Rabs_minus_sym y z); replace (x - y) with ((x - z) + (z - y)) by ring; apply Rabs_triang end.
Qed.

(** ** examples *)
Lemma sound_k : sound_key 9 P_key.kf P_key.kg P_key.kF P_key.kG.
Proof.
  destruct P_key.k_length as [L1 [L2 [L3 L4]]]. destruct (P_key.k_small 68 ltac:(lia)) as [K1 [K2 [K3 K4]]]. assert (G := P_key.k_gs).
  assert (U : forall l, Forall (fun x => Z.abs x <= 68)%Z l -> Forall (fun x => Z.abs x <= 27000)%Z l /\ Forall smallq l).
  { intros l H. split; eapply Forall_impl; try exact H; cbv beta; intros x Hx; unfold smallq, q; lia. }
  split; [exact L1|]. split; [exact L2|]. split; [exact L3|]. split; [exact L4|]. split; [exact P_key.k_ntru|]. split; [lra|]. split.
  - right. rewrite sigma_9. change (sigma_min RF 9) with (flit RF 1277833697 9). unfold flit. cbn.
    match goal with |- ?a * ?a * _ <= _ => apply Rle_trans with (a * a * 16822); [apply Rmult_le_compat_l; [lra|exact G]|lra] end.
  - split; [apply U; exact K3|]. split; [apply U; exact K4|]. split; [apply U; exact K1|]. split; [apply U; exact K2|]. exact P_key.k_inv.
Qed.
Lemma sound_k' : sound_key 9 P_key.kf P_key.kg (padd (2 ^ 9) P_key.kF P_key.kf) (padd (2 ^ 9) P_key.kG P_key.kg).
Proof.
  destruct sound_k as (L1 & L2 & L3 & L4 & HN & HGS & Hsm & _ & _ & Sf & Sg & HI). destruct (P_key.k_small 68 ltac:(lia)) as [K1 [K2 [K3 K4]]].
  assert (U : forall a b n, Forall (fun x => Z.abs x <= 68)%Z a -> Forall (fun x => Z.abs x <= 68)%Z b -> Forall (fun x => Z.abs x <= 27000)%Z (padd n a b)).
  { intros a b n Ha Hb. apply Forall_nth_intro with (d := 0%Z). unfold padd. rewrite tab_length. intros i Hi. rewrite nth_tab by exact Hi.
    assert (X : forall l, Forall (fun x => Z.abs x <= 68)%Z l -> (Z.abs (nth i l 0) <= 68)%Z) by (intros l Hl; destruct (Nat.lt_ge_cases i (length l)) as [C|C]; [rewrite Forall_forall in Hl; apply Hl, nth_In; exact C|rewrite nth_overflow by exact C; cbn; lia]).
    assert (Xa := X a Ha). assert (Xb := X b Hb). lia. }
  split; [exact L1|]. split; [exact L2|]. split; [apply tab_length|]. split; [apply tab_length|]. split.
  - apply ntru_iff. apply ntru_iff in HN. rewrite <- HN.
    assert (E : forall a b, length a = (2 ^ 9)%nat -> length b = (2 ^ 9)%nat -> ofl Z 0%Z (2 ^ 9) (padd (2 ^ 9) a b) = Poly.padd Z 0%Z Z.add (ofl Z 0%Z (2 ^ 9) a) (ofl Z 0%Z (2 ^ 9) b)).
    { intros a b La Lb. rewrite <- (ofl_pl Z 0%Z (2 ^ 9) (Poly.padd _ _ _ _ _)). rewrite pl_padd', !(pl_ofl Z 0%Z (2 ^ 9)) by assumption. reflexivity. }
    rewrite !E by assumption. apply (alg_shift _ _ _ _ _ _ _ (pring Z 0%Z 1%Z Z.add Z.mul Z.sub Z.opp Zth' (2 ^ 9))).
  - split; [exact HGS|]. split; [exact Hsm|]. split; [apply U; assumption|]. split; [apply U; assumption|]. split; [exact Sf|]. split; [exact Sg|exact HI].
Qed.
