(** P_fft.v -- the FFT code in exact arithmetic: C^N with pointwise operations is C[x]/(x^N+1). *)
From Verif Require Import Base Ring Poly Spec SpecR M_float M_exact M_xform P_xform P_xring P_brv M_codec P_codec M_samp M_fft M_ntru P_ntru P_cplx.
From Coq Require Import Ring_theory Ring Lra.
Open Scope R_scope.
Add Ring CxRing2 : Cring.

Notation cpv := (pv Cx).
Notation cc := (@pc Cx Czero _).
Notation cpadd := (@Poly.padd Cx Czero Cadd _).
Notation cpsub := (@Poly.psub Cx Czero Csub _).
Notation cpopp := (@popp Cx Czero Copp _).
Notation cpmul := (@pmul Cx Czero Cadd Cmul Copp _).
Notation cp0 := (@p0 Cx Czero _).
Notation cp1 := (@p1 Cx Czero Cone _).
Notation cpof n l := (ofl Cx Czero n l).
Notation cpl := (@pl Cx _).

(** value of a polynomial at the i-th point, FFT form *)
Definition ev {lg} (p : cpv (2 ^ lg)) (i : nat) : Cx := Ceval (2 ^ lg) (cc p) (pt lg i).
Definition ft {lg} (p : cpv (2 ^ lg)) : list Cx := tab (2 ^ lg) (ev p).

Lemma ft_length lg (p : cpv (2 ^ lg)) : length (ft p) = (2 ^ lg)%nat.
Proof. apply tab_length. Qed.
Lemma nth_ft lg (p : cpv (2 ^ lg)) i : (i < 2 ^ lg)%nat -> nth i (ft p) Czero = ev p i.
Proof. intros H. unfold ft. apply nth_tab; exact H. Qed.

Lemma horner_shift a x : horner a x = Ceval (length a) (fun j => nth j a Czero) x.
Proof.
  unfold reval. induction a as [|c r IH]; [reflexivity|]. cbn [horner length]. rewrite IH.
  rewrite (rsum_S_l _ _ _ _ _ _ _ Cring). cbn [nth rpow]. rewrite <- (rsum_scal _ _ _ _ _ _ _ Cring).
  f_equal; [ring|]. apply rsum_ext. intros i Hi. ring.
Qed.
Lemma values_ft lg a : length a = (2 ^ lg)%nat -> values lg a = ft (cpof (2 ^ lg) a).
Proof.
  intros La. unfold values, ft, tab. apply map_ext_in. intros i Hi. rewrite horner_shift, La. unfold ev.
  apply reval_ext. intros j Hj. symmetry. apply pc_ofl. exact Hj.
Qed.
Lemma ft_values lg (p : cpv (2 ^ lg)) : ft p = values lg (cpl p).
Proof. rewrite values_ft by apply pl_length. rewrite ofl_pl. reflexivity. Qed.

(** ** fft *)
Notation zhC := (zh Cx Cone Cmul zeta 10).

Lemma ct_ops lg : (lg <= 10)%nat -> ct_ops_ok Cx Cadd Cmul Csub zhC Cx Czero Cmul Csub Cadd exact_table (fun x => x) (fun _ => True) lg.
Proof.
  intros Hl k x y Hk _ _. assert (2 ^ lg <= 2 ^ 10)%nat by (apply Nat.pow_le_mono_r; lia).
  rewrite table_nth by (change 1024%nat with (2 ^ 10)%nat; lia). repeat split.
Qed.

Lemma ct_value lg (a : nat -> Cx) p : (lg <= 10)%nat -> (p < 2 ^ lg)%nat ->
  ct_iterR Cx Cadd Cmul Csub zhC lg lg a p = Ceval (2 ^ lg) a (pt lg p).
Proof.
  intros Hl Hp. destruct lg as [|lg].
  - simpl in Hp. assert (p = 0)%nat by lia. subst p. cbn. unfold reval. cbn. ring.
  - rewrite (ct_eval _ _ _ _ _ _ _ Cring _ (rhoh Cx Cone Cmul Copp zeta 10));
      [|apply (heap_ok_h _ _ _ _ _ _ _ Cring _ _ zeta_root); exact Hl|exact Hp].
    rewrite rho_pt by (lia || exact Hp). reflexivity.
Qed.

Lemma fft_ok lg (v : list Cx) : (lg <= 10)%nat -> length v = (2 ^ lg)%nat ->
  fft RF exact_table lg v = Ok (ft (cpof (2 ^ lg) v)).
Proof.
  intros Hl Lv. unfold fft. assert (H2 : (2 ^ lg <= 2 ^ 10)%nat) by (apply Nat.pow_le_mono_r; lia).
  change (ct Cx Cmul Csub Cadd exact_table lg v = Ok (ft (cpof (2 ^ lg) v))).
  rewrite (ct_ok Cx Czero) by (rewrite ?table_length; assumption). f_equal.
  apply (list_ext Czero); [rewrite ct_iter_length, ft_length; exact Lv|]. rewrite ct_iter_length, Lv. intros i Hi.
  rewrite nth_ft by exact Hi.
  assert (I := ct_iter_phi _ _ _ _ zhC Cx Czero _ _ _ _ (fun x => x) (fun _ => True) lg lg v (ct_ops lg Hl) (le_n _) Lv (fun _ _ => I) i Hi).
  destruct I as [_ I]. rewrite I. rewrite ct_value by assumption. unfold ev. apply reval_ext. intros j Hj. symmetry. apply pc_ofl. exact Hj.
Qed.

(** ** ifft *)
Lemma gs_ops lg : (lg <= 10)%nat ->
  gs_ops_ok Cx Cadd Cmul Csub (fun k => Copp (zhC k)) Cx Czero Cadd Csub Cmul (map Copp exact_table) (fun x => x) (fun _ => True) lg.
Proof.
  intros Hl k x y Hk _ _. assert (H2 : (2 ^ lg <= 2 ^ 10)%nat) by (apply Nat.pow_le_mono_r; lia).
  assert (E : nth k (map Copp exact_table) Czero = Copp (zhC k)).
  { rewrite (nth_indep _ Czero (Copp Czero)) by (rewrite map_length, table_length; change 1024%nat with (2 ^ 10)%nat; lia).
    rewrite map_nth, table_nth by (change 1024%nat with (2 ^ 10)%nat; lia). reflexivity. }
  rewrite E. repeat split.
Qed.
Lemma Cpow_two n : Cpow (two Cx Cone Cadd) n = (INR (2 ^ n), 0).
Proof.
  induction n as [|n IH]; [simpl; reflexivity|]. cbn [rpow]. rewrite IH. rewrite !INR_pow2. unfold two. apply Cx_eq; cx; simpl; ring.
Qed.
Lemma winv lg : (lg <= 10)%nat -> winv_ok Cx Cone Cmul zhC (fun k => Copp (zhC k)) lg.
Proof. intros Hl. apply (winv_ok_h _ _ _ _ _ _ _ Cring _ _ zeta_root); exact Hl. Qed.

Definition inv2 (lg : nat) : R := 1 / IZR (Z.of_nat (2 ^ lg)).
Lemma inv2_val lg : inv2 lg = / INR (2 ^ lg).
Proof. unfold inv2. rewrite <- INR_IZR_INZ. unfold Rdiv. ring. Qed.
Definition Cscal (x : Cx) (s : R) : Cx := (fst x * s, snd x * s).

Lemma ifft_raw lg (y : list Cx) : (lg <= 10)%nat -> length y = (2 ^ lg)%nat ->
  exists v : list Cx, ifft RF exact_table lg y = Ok v /\ length v = (2 ^ lg)%nat /\
   forall p, (p < 2 ^ lg)%nat -> nth p v Czero = Cscal (gs_iterR Cx Cadd Cmul Csub (fun k => Copp (zhC k)) lg lg (fun i => nth i y Czero) p) (inv2 lg).
Proof.
  intros Hl Ly. assert (H2 : (2 ^ lg <= 2 ^ 10)%nat) by (apply Nat.pow_le_mono_r; lia).
  exists (map (fun x => Cscal x (inv2 lg)) (gs_iter Cx Czero Cadd Csub Cmul (map Copp exact_table) lg lg y)).
  split; [|split].
  - unfold ifft. change (gs Cx Cadd Csub Cmul (map Copp exact_table) (fun x => Cscal x (inv2 lg)) lg y =
      Ok (map (fun x => Cscal x (inv2 lg)) (gs_iter Cx Czero Cadd Csub Cmul (map Copp exact_table) lg lg y))).
    apply gs_ok; rewrite ?map_length, ?table_length; assumption.
  - rewrite map_length, gs_iter_length; exact Ly.
  - intros p Hp. rewrite (nth_indep _ Czero (Cscal Czero (inv2 lg))) by (rewrite map_length, gs_iter_length; lia).
    rewrite (map_nth (fun x => Cscal x (inv2 lg))). f_equal.
    apply (gs_iter_phi _ _ _ _ (fun k => Copp (zhC k)) Cx Czero _ _ _ _ (fun x => x) (fun _ => True) lg lg y (gs_ops lg Hl) (le_n _) Ly (fun _ _ => I) p Hp).
Qed.

Lemma Cscal_pow2 lg (x : Cx) : Cscal (Cmul (INR (2 ^ lg), 0) x) (inv2 lg) = x.
Proof. rewrite inv2_val. pose proof (INR_pow2_pos lg). apply Cx_eq; unfold Cscal; cx; field; lra. Qed.

Lemma ifft_ok lg (p : cpv (2 ^ lg)) : (lg <= 10)%nat -> ifft RF exact_table lg (ft p) = Ok (cpl p).
Proof.
  intros Hl. destruct (ifft_raw lg (ft p) Hl (ft_length _ _)) as [v [E [Lv Hv]]]. rewrite E. apply (f_equal Ok).
  apply (@list_ext Cx Czero); [rewrite pl_length; exact Lv|]. rewrite Lv. intros i Hi. rewrite Hv by exact Hi.
  rewrite (gs_iterR_ext Cx Cadd Cmul Csub _ lg lg _ (ct_iterR Cx Cadd Cmul Csub zhC lg lg (cc p))); [|lia|exact Hi|].
  - rewrite (gs_ct_iter _ _ _ _ _ _ _ Cring); [|apply winv; exact Hl|lia|exact Hi]. rewrite Cpow_two. apply Cscal_pow2.
  - intros j Hj. rewrite nth_ft, ct_value by assumption. reflexivity.
Qed.

Lemma ft_inj lg (p p' : cpv (2 ^ lg)) : (lg <= 10)%nat -> ft p = ft p' -> p = p'.
Proof.
  intros Hl H. apply pl_ext. assert (E := ifft_ok lg p Hl). rewrite H, ifft_ok in E by exact Hl. injection E as E. symmetry; exact E.
Qed.
Lemma ft_surj lg (y : list Cx) : (lg <= 10)%nat -> length y = (2 ^ lg)%nat -> exists p : cpv (2 ^ lg), y = ft p.
Proof.
  intros Hl Ly. destruct (ifft_raw lg y Hl Ly) as [v [E [Lv Hv]]]. exists (cpof (2 ^ lg) v).
  apply (list_ext Czero); [rewrite ft_length; exact Ly|]. rewrite Ly. intros i Hi. rewrite nth_ft by exact Hi.
  unfold ev. rewrite <- ct_value by assumption.
  rewrite (ct_iterR_ext Cx Cadd Cmul Csub zhC lg lg _
    (fun i => Cmul (inv2 lg, 0) (gs_iterR Cx Cadd Cmul Csub (fun k => Copp (zhC k)) lg lg (fun i => nth i y Czero) i))); [|lia|exact Hi|].
  - rewrite (ct_iterR_scal _ _ _ _ _ _ _ Cring) by (exact Hi || lia).
    rewrite (ct_gs_iter _ _ _ _ _ _ _ Cring); [|apply winv; exact Hl|lia|exact Hi]. rewrite Cpow_two.
    rewrite inv2_val. pose proof (INR_pow2_pos lg). apply Cx_eq; cx; field; lra.
  - intros j Hj. rewrite pc_ofl by exact Hj. rewrite Hv by exact Hj. apply Cx_eq; unfold Cscal; cx; ring.
Qed.
Lemma ifft_surj lg (y : list Cx) : (lg <= 10)%nat -> length y = (2 ^ lg)%nat ->
  exists v : list Cx, ifft RF exact_table lg y = Ok v /\ length v = (2 ^ lg)%nat /\ fft RF exact_table lg v = Ok y.
Proof.
  intros Hl Ly. destruct (ft_surj lg y Hl Ly) as [p ->]. exists (cpl p). rewrite ifft_ok by exact Hl.
  split; [reflexivity|]. split; [apply pl_length|]. rewrite fft_ok by (exact Hl || apply pl_length). rewrite ofl_pl. reflexivity.
Qed.

(** ** pointwise operations *)
Lemma ev_add lg (p q : cpv (2 ^ lg)) i : ev (cpadd p q) i = Cadd (ev p i) (ev q i).
Proof. unfold ev. rewrite <- (reval_add _ _ _ _ _ _ _ Cring). apply reval_ext. intros j Hj. apply pc_add; exact Hj. Qed.
Lemma ev_sub lg (p q : cpv (2 ^ lg)) i : ev (cpsub p q) i = Csub (ev p i) (ev q i).
Proof. unfold ev. rewrite <- (reval_sub _ _ _ _ _ _ _ Cring). apply reval_ext. intros j Hj. apply pc_sub; exact Hj. Qed.
Lemma ev_mul lg (p q : cpv (2 ^ lg)) i : ev (cpmul p q) i = Cmul (ev p i) (ev q i).
Proof.
  unfold ev. rewrite <- (reval_nconv _ _ _ _ _ _ _ Cring) by apply pt_root. apply reval_ext. intros j Hj. apply pc_mul; exact Hj.
Qed.
Lemma ev_cst lg c i : ev (pcst Cx Czero c : cpv (2 ^ lg)) i = c.
Proof.
  unfold ev, reval, pcst. rewrite (rsum_single _ _ _ _ _ _ _ Cring _ _ 0%nat).
  - rewrite pc_mkp by apply pow2_pos. cbn. ring.
  - apply pow2_pos.
  - intros j Hj H. rewrite pc_mkp by exact Hj. destruct (Nat.eqb_spec j 0); [lia|ring].
Qed.

Lemma zip_ft (op : Cx -> Cx -> Cx) lg (p q r : cpv (2 ^ lg)) (o : list Cx) : length o = (2 ^ lg)%nat ->
  (forall i, ev r i = op (ev p i) (ev q i)) ->
  zipw (fun x y => Ok (op x y)) (2 ^ lg) (ft p) (ft q) o = Ok (ft r).
Proof.
  intros Lo H. rewrite (zipw_ok (fun x y => Ok (op x y)) op (2 ^ lg) (ft p) (ft q) o Czero Czero);
    [|rewrite ft_length; reflexivity|rewrite ft_length; reflexivity|symmetry; exact Lo|reflexivity].
  f_equal. unfold ft at 3. apply tab_ext. intros i Hi. rewrite !nth_ft by exact Hi. symmetry; apply H.
Qed.
Lemma cpoly_add_ok lg (p q : cpv (2 ^ lg)) (o : list Cx) : length o = (2 ^ lg)%nat -> cpoly_add RF lg (ft p) (ft q) o = Ok (ft (cpadd p q)).
Proof. intros Lo. apply (zip_ft Cadd); [exact Lo|]. intros i. apply ev_add. Qed.
Lemma cpoly_sub_ok lg (p q : cpv (2 ^ lg)) (o : list Cx) : length o = (2 ^ lg)%nat -> cpoly_sub RF lg (ft p) (ft q) o = Ok (ft (cpsub p q)).
Proof. intros Lo. apply (zip_ft Csub); [exact Lo|]. intros i. apply ev_sub. Qed.
Lemma cpoly_mul_ok lg (p q : cpv (2 ^ lg)) (o : list Cx) : length o = (2 ^ lg)%nat -> cpoly_mul RF lg (ft p) (ft q) o = Ok (ft (cpmul p q)).
Proof. intros Lo. apply (zip_ft Cmul); [exact Lo|]. intros i. apply ev_mul. Qed.

(** in-place pointwise addition *)
Lemma cpoly_add_to_ok lg (p q : cpv (2 ^ lg)) : cpoly_add_to RF lg (ft p) (ft q) = Ok (ft (cpadd p q)).
Proof.
  unfold cpoly_add_to.
  destruct (forn_inv (fun i (t : list Cx) => length t = (2 ^ lg)%nat /\
     forall j, (j < 2 ^ lg)%nat -> nth j t Czero = if (j <? i)%nat then ev (cpadd p q) j else ev p j)
     (2 ^ lg) 0 (fun i v => x <- rd v i ;; y <- rd (ft q) i ;; wr v i (cadd RF x y)) (ft p)) as [t [E [L H]]].
  - split; [apply ft_length|]. intros j Hj. apply nth_ft; exact Hj.
  - intros i t Hi [L H]. assert (Hi' : (i < 2 ^ lg)%nat) by lia.
    rewrite (rd_Ok t i Czero) by lia. cbn [bind].
    rewrite (rd_Ok (ft q) i Czero) by (rewrite ft_length; exact Hi'). cbn [bind]. rewrite wr_Ok by lia.
    eexists; split; [reflexivity|]. split; [rewrite upd_length; exact L|].
    intros j Hj. rewrite nth_upd by lia. destruct (Nat.eqb_spec j i) as [->|Hn].
    + destruct (Nat.ltb_spec i (S i)); [|lia]. rewrite H, nth_ft by exact Hi'. destruct (Nat.ltb_spec i i); [lia|].
      rewrite ev_add. reflexivity.
    + rewrite H by exact Hj. destruct (Nat.ltb_spec j i), (Nat.ltb_spec j (S i)); reflexivity || lia.
  - etransitivity; [exact E|]. f_equal. apply (@list_ext Cx Czero); [rewrite ft_length; exact L|]. rewrite L. intros i Hi.
    rewrite H, nth_ft by exact Hi. destruct (Nat.ltb_spec i (0 + 2 ^ lg)); [reflexivity|lia].
Qed.

(** adjoint: coefficients a_0*, -a_(N-1)*, ..., -a_1* *)
Definition padj {n} (p : cpv n) : cpv n :=
  mkp Cx n (fun k => if (k =? 0)%nat then Cconj (cc p 0) else Copp (Cconj (cc p (n - k)))).

Lemma Csum_conj n f : Cconj (Csum n f) = Csum n (fun i => Cconj (f i)).
Proof. induction n as [|n IH]; cbn [rsum]; [apply Cconj_0|]. rewrite Cconj_add, IH. reflexivity. Qed.
Lemma Cconj_pow x n : Cconj (Cpow x n) = Cpow (Cconj x) n.
Proof. induction n as [|n IH]; cbn [rpow]; [apply Cconj_1|]. rewrite Cconj_mul, IH. reflexivity. Qed.

(** conj(x)^j = -x^(N-j) at the evaluation points *)
Lemma pt_conj_pow lg i j : (0 < j <= 2 ^ lg)%nat -> Cpow (Cconj (pt lg i)) j = Copp (Cpow (pt lg i) (2 ^ lg - j)).
Proof.
  intros Hj. assert (E : Cmul (Cpow (pt lg i) j) (Cpow (Cconj (pt lg i)) j) = Cone).
  { rewrite <- (rpow_mul _ _ _ _ _ _ _ Cring), pt_conj. apply (rpow_1 _ _ _ _ _ _ _ Cring). }
  assert (E2 := pt_root lg i). replace (2 ^ lg)%nat with (2 ^ lg - j + j)%nat in E2 by lia.
  rewrite (rpow_add _ _ _ _ _ _ _ Cring) in E2.
  replace (2 ^ lg - j + j - j)%nat with (2 ^ lg - j)%nat in E2 by lia.
  replace (Cpow (Cconj (pt lg i)) j) with (Copp (Cmul (Copp Cone) (Cpow (Cconj (pt lg i)) j))) by ring.
  rewrite <- E2. replace (2 ^ lg - j + j - j)%nat with (2 ^ lg - j)%nat by lia.
  transitivity (Copp (Cmul (Cpow (pt lg i) (2 ^ lg - j)) (Cmul (Cpow (pt lg i) j) (Cpow (Cconj (pt lg i)) j)))); [ring|].
  rewrite E. ring.
Qed.

Lemma Csum_first n f : (0 < n)%nat -> Csum n f = Cadd (f 0%nat) (Csum (n - 1) (fun i => f (S i))).
Proof. intros H. destruct n as [|n]; [lia|]. rewrite (rsum_S_l _ _ _ _ _ _ _ Cring). replace (S n - 1)%nat with n by lia. reflexivity. Qed.
Lemma ev_adj lg (p : cpv (2 ^ lg)) i : ev (padj p) i = Cconj (ev p i).
Proof.
  unfold ev, reval. rewrite Csum_conj.
  rewrite (rsum_ext _ _ _ _ (fun j => Cconj (Cmul (cc p j) (Cpow (pt lg i) j))) (fun j => Cmul (Cconj (cc p j)) (Cpow (Cconj (pt lg i)) j)))
    by (intros; rewrite Cconj_mul, Cconj_pow; reflexivity).
  assert (P := pow2_pos lg). rewrite !(Csum_first (2 ^ lg)) by exact P.
  f_equal; [unfold padj; rewrite pc_mkp by exact P; reflexivity|].
  rewrite (rsum_rev _ _ _ _ _ _ _ Cring). apply rsum_ext. intros j Hj.
  unfold padj. rewrite pc_mkp by lia. destruct (Nat.eqb_spec (S (2 ^ lg - 1 - 1 - j)) 0); [lia|].
  replace (2 ^ lg - S (2 ^ lg - 1 - 1 - j))%nat with (S j) by lia.
  rewrite pt_conj_pow by lia. replace (2 ^ lg - S j)%nat with (S (2 ^ lg - 1 - 1 - j)) by lia. ring.
Qed.

Lemma adj_poly_ok lg (p : cpv (2 ^ lg)) : adj_poly RF lg (ft p) = Ok (ft (padj p)).
Proof.
  unfold adj_poly. rewrite mapw_ok by (rewrite ft_length; reflexivity). f_equal. unfold ft, tab. rewrite map_map. apply map_ext. intros i.
  symmetry. exact (ev_adj lg p i).
Qed.

(** ** split and merge *)
Lemma Cmul_swap a b x : Cmul a (Cmul x b) = Cmul x (Cmul a b). Proof. ring. Qed.
Lemma Cmul_swap_opp a b x : Cmul a (Cmul (Copp x) b) = Copp (Cmul x (Cmul a b)). Proof. ring. Qed.
Lemma ev_even lg (p : cpv (2 ^ S lg)) i : ev p (2 * i) = Cadd (@ev lg (pev Cx Czero p) i) (Cmul (pt (S lg) (2 * i)) (@ev lg (pod Cx Czero p) i)).
Proof.
  unfold ev, reval. change (2 ^ S lg)%nat with (2 * 2 ^ lg)%nat at 1. rewrite (rsum_parity _ _ _ _ _ _ _ Cring).
  rewrite <- (rsum_scal _ _ _ _ _ _ _ Cring). rewrite <- (pt_sq lg i).
  f_equal; apply rsum_ext; intros j Hj; unfold pev, pod; rewrite pc_mkp by exact Hj.
  - f_equal. rewrite (rpow_mul _ _ _ _ _ _ _ Cring), <- (rpow_add _ _ _ _ _ _ _ Cring). f_equal. lia.
  - rewrite (rpow_mul _ _ _ _ _ _ _ Cring), <- (rpow_add _ _ _ _ _ _ _ Cring).
    replace (Cpow (pt (S lg) (2 * i)) (2 * j + 1)) with (Cmul (pt (S lg) (2 * i)) (Cpow (pt (S lg) (2 * i)) (j + j)))
      by (replace (2 * j + 1)%nat with (S (j + j))%nat by lia; reflexivity). apply Cmul_swap.
Qed.
Lemma Cpow_opp_even x j : Cpow (Copp x) (j + j) = Cpow x (j + j).
Proof. rewrite !(rpow_add _ _ _ _ _ _ _ Cring), <- !(rpow_mul _ _ _ _ _ _ _ Cring). replace (Cmul (Copp x) (Copp x)) with (Cmul x x) by ring. reflexivity. Qed.
Lemma ev_odd lg (p : cpv (2 ^ S lg)) i : ev p (2 * i + 1) = Csub (@ev lg (pev Cx Czero p) i) (Cmul (pt (S lg) (2 * i)) (@ev lg (pod Cx Czero p) i)).
Proof.
  unfold ev, reval. change (2 ^ S lg)%nat with (2 * 2 ^ lg)%nat at 1. rewrite (rsum_parity _ _ _ _ _ _ _ Cring).
  rewrite <- (pt_sq lg i), pt_odd.
  transitivity (Cadd (Csum (2 ^ lg) (fun j => Cmul (cc p (2 * j)) (Cpow (pt (S lg) (2 * i)) (j + j))))
     (Csum (2 ^ lg) (fun j => Copp (Cmul (pt (S lg) (2 * i)) (Cmul (cc p (2 * j + 1)) (Cpow (pt (S lg) (2 * i)) (j + j))))))).
  - f_equal; apply rsum_ext; intros j Hj.
    + replace (2 * j)%nat with (j + j)%nat at 2 by lia. rewrite Cpow_opp_even. reflexivity.
    + replace (Cpow (Copp (pt (S lg) (2 * i))) (2 * j + 1)) with (Cmul (Copp (pt (S lg) (2 * i))) (Cpow (pt (S lg) (2 * i)) (j + j)))
        by (rewrite <- Cpow_opp_even; replace (2 * j + 1)%nat with (S (j + j))%nat by lia; reflexivity). apply Cmul_swap_opp.
  - rewrite (rsum_opp _ _ _ _ _ _ _ Cring). rewrite (rsum_scal _ _ _ _ _ _ _ Cring).
    match goal with |- Cadd ?a (Copp (Cmul ?x ?b)) = Csub ?c (Cmul _ ?d) => assert (Ea : a = c); [|assert (Eb : b = d); [|rewrite Ea, Eb; ring]] end;
    apply rsum_ext; intros j Hj; unfold pev, pod; rewrite pc_mkp by exact Hj; rewrite (rpow_mul _ _ _ _ _ _ _ Cring), <- (rpow_add _ _ _ _ _ _ _ Cring); reflexivity.
Qed.

Lemma half_pow lg : (2 ^ S lg / 2 = 2 ^ lg)%nat.
Proof. change (2 ^ S lg)%nat with (2 * 2 ^ lg)%nat. apply half2. Qed.

Definition Chalf (x : Cx) : Cx := (fst x * (5 / 10), snd x * (5 / 10)).
Lemma Chalf_val x : Cadd (Chalf x) (Chalf x) = x.
Proof. apply Cx_eq; unfold Chalf; cx; field. Qed.
Lemma Chalf_add x : Chalf (Cadd x x) = x.
Proof. apply Cx_eq; unfold Chalf; cx; field. Qed.

(** one loop writing cell i of two arrays in iteration i *)
Lemma fill2_ok {A} (d : A) n body (i0 i1 : list A) (f0 f1 : nat -> A) : length i0 = n -> length i1 = n ->
  (forall i v0 v1, (i < n)%nat -> length v0 = n -> length v1 = n ->
     (nth i v0 d = nth i i0 d) -> (nth i v1 d = nth i i1 d) -> body i (v0, v1) = Ok (upd v0 i (f0 i), upd v1 i (f1 i))) ->
  forn n 0 body (i0, i1) = Ok (tab n f0, tab n f1).
Proof.
  intros L0 L1 H.
  destruct (forn_inv (fun i v => filled A d n i f0 (fun j => nth j i0 d) (fst v) /\ filled A d n i f1 (fun j => nth j i1 d) (snd v)) n 0 body (i0, i1)) as [v [E [P0 P1]]].
  - split; apply filled_start; assumption.
  - intros j [t0 t1] Hj [H0 H1]. cbn [fst snd] in H0, H1. exists (upd t0 j (f0 j), upd t1 j (f1 j)).
    split; [|split; apply filled_step; assumption || lia].
    apply H; [lia|apply H0|apply H1| |].
    + apply (filled_old _ _ n j f0 (fun j => nth j i0 d) t0); [lia|exact H0].
    + apply (filled_old _ _ n j f1 (fun j => nth j i1 d) t1); [lia|exact H1].
  - cbn [Nat.add] in P0, P1. apply filled_end in P0, P1. etransitivity; [exact E|]. destruct v as [v0 v1]; cbn [fst snd] in *. subst. reflexivity.
Qed.

Lemma ztab_rd lg i : (S lg <= 10)%nat -> (i < 2 ^ lg)%nat -> rd exact_table (2 ^ lg + i) = Ok (pt (S lg) (2 * i)).
Proof.
  intros Hl Hi. assert (H1 : (2 ^ S lg <= 2 ^ 10)%nat) by (apply Nat.pow_le_mono_r; lia).
  rewrite (rd_Ok exact_table (2 ^ lg + i) Czero) by (rewrite table_length; change 1024%nat with (2 ^ 10)%nat; simpl in H1 |- *; lia).
  rewrite table_pt by assumption. reflexivity.
Qed.

(** split_fft cell by cell *)
Definition spl0 (lg : nat) (y : list Cx) : list Cx := tab (2 ^ lg) (fun i => Chalf (Cadd (nth (2 * i) y Czero) (nth (2 * i + 1) y Czero))).
Definition spl1 (lg : nat) (y : list Cx) : list Cx :=
  tab (2 ^ lg) (fun i => Cmul (Chalf (Csub (nth (2 * i) y Czero) (nth (2 * i + 1) y Czero))) (Cconj (pt (S lg) (2 * i)))).
Lemma split_raw lg (y o0 o1 : list Cx) : (S lg <= 10)%nat -> length y = (2 ^ S lg)%nat -> length o0 = (2 ^ lg)%nat -> length o1 = (2 ^ lg)%nat ->
  split_fft RF exact_table (S lg) y o0 o1 = Ok (spl0 lg y, spl1 lg y).
Proof.
  intros Hl Ly L0 L1. unfold split_fft. rewrite half_pow.
  refine (fill2_ok Czero (2 ^ lg) _ o0 o1 _ _ L0 L1 _).
  intros i v0 v1 Hi M0 M1 _ _.
  assert (Ly' : length y = (2 ^ lg + (2 ^ lg + 0))%nat) by exact Ly.
  etransitivity; [apply (f_equal (fun r => bind r _)); apply ztab_rd; assumption|]. cbn [bind].
  etransitivity; [apply (f_equal (fun r => bind r _)); apply (rd_Ok y (2 * i) Czero); lia|]. cbn [bind].
  etransitivity; [apply (f_equal (fun r => bind r _)); apply (rd_Ok y (2 * i + 1) Czero); lia|]. cbn [bind].
  rewrite wr_Ok by (change (i < @length Cx v0)%nat; rewrite M0; exact Hi). cbn [bind]. rewrite wr_Ok by (change (i < @length Cx v1)%nat; rewrite M1; exact Hi). reflexivity.
Qed.
Lemma spl0_ft lg (p : cpv (2 ^ S lg)) : spl0 lg (ft p) = @ft lg (pev Cx Czero p).
Proof.
  apply tab_ext. intros i Hi. assert (2 * i + 1 < 2 ^ S lg)%nat by (simpl; lia).
  rewrite !nth_ft by lia. rewrite ev_even, ev_odd.
  rewrite <- (Chalf_add (ev (pev Cx Czero p) i)) at 3. f_equal. ring.
Qed.
Lemma spl1_ft lg (p : cpv (2 ^ S lg)) : spl1 lg (ft p) = @ft lg (pod Cx Czero p).
Proof.
  apply tab_ext. intros i Hi. assert (2 * i + 1 < 2 ^ S lg)%nat by (simpl; lia).
  rewrite !nth_ft by lia. rewrite ev_even, ev_odd. set (e := ev (pev Cx Czero p) i). set (o := ev (pod Cx Czero p) i). set (x := pt (S lg) (2 * i)).
  replace (Csub (Cadd e (Cmul x o)) (Csub e (Cmul x o))) with (Cadd (Cmul x o) (Cmul x o)) by ring. rewrite Chalf_add.
  transitivity (Cmul o (Cmul x (Cconj x))); [ring|]. unfold x; rewrite pt_conj. ring.
Qed.
Lemma split_ok lg (p : cpv (2 ^ S lg)) (o0 o1 : list Cx) : (S lg <= 10)%nat -> length o0 = (2 ^ lg)%nat -> length o1 = (2 ^ lg)%nat ->
  split_fft RF exact_table (S lg) (ft p) o0 o1 = Ok (@ft lg (pev Cx Czero p), @ft lg (pod Cx Czero p)).
Proof. intros Hl L0 L1. rewrite split_raw by (exact Hl || apply ft_length || assumption). rewrite spl0_ft, spl1_ft. reflexivity. Qed.

(** interleaving *)
Definition pint {n} (a b : cpv n) : cpv (2 * n) := mkp Cx (2 * n) (fun k => if Nat.even k then cc a (k / 2) else cc b (k / 2)).
Lemma pev_pint n (a b : cpv n) : pev Cx Czero (pint a b) = a.
Proof. apply (pv_ext Cx Czero). intros k Hk. unfold pev, pint. rewrite !pc_mkp by lia. rewrite evenb2, half2. reflexivity. Qed.
Lemma pod_pint n (a b : cpv n) : pod Cx Czero (pint a b) = b.
Proof. apply (pv_ext Cx Czero). intros k Hk. unfold pod, pint. rewrite !pc_mkp by lia. rewrite evenb21, half21. reflexivity. Qed.
Lemma pint_eo n (p : cpv (2 * n)) : pint (pev Cx Czero p) (pod Cx Czero p) = p.
Proof.
  apply (pv_ext Cx Czero). intros k Hk. unfold pint, pev, pod. rewrite pc_mkp by exact Hk. destruct (parity_case k) as [i [-> | ->]].
  - rewrite evenb2, half2, pc_mkp by lia. reflexivity.
  - rewrite evenb21, half21, pc_mkp by lia. reflexivity.
Qed.

(** a loop writing cells 2i and 2i+1 in iteration i *)
Lemma fill_pairs {A} (d : A) n body (init : list A) (f : nat -> A) : length init = (2 * n)%nat ->
  (forall i v, (i < n)%nat -> length v = (2 * n)%nat -> body i v = Ok (upd (upd v (2 * i) (f (2 * i)%nat)) (2 * i + 1) (f (2 * i + 1)%nat))) ->
  forn n 0 body init = Ok (tab (2 * n) f).
Proof.
  intros L H. destruct (forn_inv (fun i v => filled A d (2 * n) (2 * i) f (fun j => nth j init d) v) n 0 body init) as [v [E P]].
  - apply filled_start; exact L.
  - intros j t Hj Ht. eexists. split; [apply H; [lia|apply Ht]|].
    replace (2 * S j)%nat with (S (2 * j + 1)) by lia. apply filled_step; [lia|]. replace (2 * j + 1)%nat with (S (2 * j)) by lia. apply filled_step; [lia|exact Ht].
  - cbn [Nat.add] in P. apply filled_end in P. rewrite E, P. reflexivity.
Qed.
Lemma merge_ok lg (a b : cpv (2 ^ lg)) (o : list Cx) : (S lg <= 10)%nat -> length o = (2 ^ S lg)%nat ->
  merge_fft RF exact_table (S lg) (ft a) (ft b) o = Ok (@ft (S lg) (pint a b)).
Proof.
  intros Hl Lo. unfold merge_fft. rewrite half_pow. unfold ft at 3. 
  refine (fill_pairs Czero (2 ^ lg) _ o _ Lo _).
  intros i v Hi M.
  etransitivity; [apply (f_equal (fun r => bind r _)); apply ztab_rd; assumption|]. cbn [bind].
  etransitivity; [apply (f_equal (fun r => bind r _)); apply (rd_Ok (ft a) i Czero); rewrite ft_length; lia|]. cbn [bind].
  etransitivity; [apply (f_equal (fun r => bind r _)); apply (rd_Ok (ft b) i Czero); rewrite ft_length; lia|]. cbn [bind].
  replace (2 * i + 0)%nat with (2 * i)%nat by lia.
  rewrite wr_Ok by (change (2 * i < @length Cx v)%nat; rewrite M; lia). cbn [bind]. rewrite wr_Ok by (rewrite upd_length; change (2 * i + 1 < @length Cx v)%nat; rewrite M; lia). apply (f_equal Ok).
  rewrite !nth_ft by exact Hi.
  assert (E0 := ev_even lg (pint a b) i). assert (E1 := ev_odd lg (pint a b) i). rewrite pev_pint, pod_pint in E0, E1.
  transitivity (upd (upd v (2 * i) (Cadd (ev a i) (Cmul (ev b i) (pt (S lg) (2 * i))))) (2 * i + 1) (Csub (ev a i) (Cmul (ev b i) (pt (S lg) (2 * i))))); [reflexivity|].
  rewrite E0, E1. f_equal; [f_equal; ring|ring].
Qed.

(** ** Parseval *)
Notation Rsum := (rsum R 0 Rplus).
Definition sq (x : Cx) : R := fst x * fst x + snd x * snd x.
Lemma sq_nonneg x : 0 <= sq x. Proof. unfold sq. nra. Qed.
Lemma sq_mul x y : sq (Cmul x y) = sq x * sq y. Proof. unfold sq; cx; ring. Qed.
Lemma sq_conj x : Cmul x (Cconj x) = (sq x, 0). Proof. unfold sq. apply Cx_eq; cx; ring. Qed.
Lemma sq_pt lg i : sq (pt lg i) = 1.
Proof. assert (H := pt_conj lg i). rewrite sq_conj in H. injection H. trivial. Qed.
Lemma sq_0 x : sq x = 0 -> x = Czero.
Proof. unfold sq. intros H. apply Cx_eq; simpl; nra. Qed.
Lemma Rsum_scal n c f : Rsum n (fun i => c * f i) = c * Rsum n f.
Proof. apply (rsum_scal _ _ _ _ _ _ _ RTheory). Qed.
Lemma parseval lg : forall p : cpv (2 ^ lg), Rsum (2 ^ lg) (fun i => sq (ev p i)) = INR (2 ^ lg) * Rsum (2 ^ lg) (fun j => sq (cc p j)).
Proof.
  induction lg as [|lg IH]; intros p.
  - assert (E : ev p 0 = cc p 0).
    { unfold ev, reval. change (Cadd Czero (Cmul (cc p 0) Cone) = cc p 0). generalize (cc p 0). intros c. ring. }
    change (0 + sq (ev p 0) = 1 * (0 + sq (cc p 0))). rewrite E. ring.
  - change (2 ^ S lg)%nat with (2 * 2 ^ lg)%nat at 1 3. rewrite !(rsum_parity _ _ _ _ _ _ _ RTheory).
    rewrite <- (rsum_add _ _ _ _ _ _ _ RTheory).
    rewrite (rsum_ext _ _ _ _ _ (fun i => 2 * sq (@ev lg (pev Cx Czero p) i) + 2 * sq (@ev lg (pod Cx Czero p) i))).
    2: { intros i Hi. rewrite ev_even, ev_odd. set (e := ev (pev Cx Czero p) i). set (o := ev (pod Cx Czero p) i).
         transitivity (2 * sq e + 2 * sq (Cmul (pt (S lg) (2 * i)) o)); [unfold sq; cx; ring|]. rewrite sq_mul, sq_pt. ring. }
    rewrite (rsum_add _ _ _ _ _ _ _ RTheory), !Rsum_scal, !IH.
    rewrite (rsum_ext _ _ _ _ (fun j => sq (cc (pev Cx Czero p) j)) (fun j => sq (cc p (2 * j)))) by (intros j Hj; unfold pev; rewrite pc_mkp by exact Hj; reflexivity).
    rewrite (rsum_ext _ _ _ _ (fun j => sq (cc (pod Cx Czero p) j)) (fun j => sq (cc p (2 * j + 1)))) by (intros j Hj; unfold pod; rewrite pc_mkp by exact Hj; reflexivity).
    rewrite !INR_pow2. simpl. ring.
Qed.
Lemma sqnorm_raw lg (y : list Cx) : length y = (2 ^ lg)%nat -> sqrd_norm_c RF lg y = Ok (Rsum (2 ^ lg) (fun i => sq (nth i y Czero)) / INR (2 ^ lg)).
Proof.
  intros Ly. unfold sqrd_norm_c.
  destruct (forn_inv (fun i (r : Cx) => r = (Rsum i (fun j => sq (nth j y Czero)), 0)) (2 ^ lg) 0
    (fun i r => x <- rd y i ;; Ok (cadd RF r (fcmul RF x (cconj RF x)))) (c0 RF)) as [r [E H]].
  - reflexivity.
  - intros i r Hi ->. rewrite (rd_Ok y i Czero) by lia. eexists; split; [reflexivity|]. cbn [rsum].
    apply Cx_eq; unfold sq; cbn; ring.
  - etransitivity; [apply (f_equal (fun r => bind r _)); exact E|]. cbn [bind Nat.add] in *. rewrite H. cbn [fst]. apply (f_equal Ok).
    change (fdiv RF) with Rdiv. change (fofz RF) with IZR. rewrite <- INR_IZR_INZ. reflexivity.
Qed.
Lemma sqnorm_ok lg (p : cpv (2 ^ lg)) : sqrd_norm_c RF lg (ft p) = Ok (Rsum (2 ^ lg) (fun j => sq (cc p j))).
Proof.
  rewrite sqnorm_raw by apply ft_length. apply (f_equal Ok).
  rewrite (rsum_ext _ _ _ _ _ (fun i => sq (ev p i))) by (intros i Hi; rewrite nth_ft by exact Hi; reflexivity).
  rewrite parseval. match goal with |- ?a = ?b => change (@eq R a b) end. field. pose proof (INR_pow2_pos lg). lra.
Qed.

(** ** integer polynomials *)
Definition emb {n} (p : zpv n) : cpv n := mkp Cx n (fun k => Cz (pc Z 0%Z p k)).
Lemma Cz_add a b : Cz (a + b) = Cadd (Cz a) (Cz b). Proof. apply Cx_eq; unfold Cz; cx; [apply plus_IZR|ring]. Qed.
Lemma Cz_sub a b : Cz (a - b) = Csub (Cz a) (Cz b). Proof. apply Cx_eq; unfold Cz; cx; [apply minus_IZR|ring]. Qed.
Lemma Cz_mul a b : Cz (a * b) = Cmul (Cz a) (Cz b). Proof. apply Cx_eq; unfold Cz; cx; [rewrite mult_IZR; ring|ring]. Qed.
Lemma Cz_opp a : Cz (- a) = Copp (Cz a). Proof. apply Cx_eq; unfold Cz; cx; [apply opp_IZR|ring]. Qed.
Lemma Cz_inj a b : Cz a = Cz b -> a = b. Proof. intros H. injection H. apply eq_IZR. Qed.
Lemma Cz_sum n f : Cz (rsum Z 0%Z Z.add n f) = Csum n (fun i => Cz (f i)).
Proof. induction n as [|n IH]; cbn [rsum]; [reflexivity|]. rewrite Cz_add, IH. reflexivity. Qed.
Lemma emb_c n (p : zpv n) k : (k < n)%nat -> cc (emb p) k = Cz (pc Z 0%Z p k).
Proof. intros H. unfold emb. apply pc_mkp; exact H. Qed.
Lemma emb_inj n (p p' : zpv n) : emb p = emb p' -> p = p'.
Proof. intros H. apply (pv_ext Z 0%Z). intros k Hk. apply Cz_inj. rewrite <- !emb_c by exact Hk. rewrite H. reflexivity. Qed.
Lemma emb_add n (p p' : zpv n) : emb (Poly.padd Z 0%Z Z.add p p') = cpadd (emb p) (emb p').
Proof. apply (pv_ext Cx Czero). intros k Hk. rewrite pc_add, !emb_c, pc_add, Cz_add by exact Hk. reflexivity. Qed.
Lemma emb_sub n (p p' : zpv n) : emb (Poly.psub Z 0%Z Z.sub p p') = cpsub (emb p) (emb p').
Proof. apply (pv_ext Cx Czero). intros k Hk. rewrite pc_sub, !emb_c, pc_sub, Cz_sub by exact Hk. reflexivity. Qed.
Lemma emb_opp n (p : zpv n) : emb (popp Z 0%Z Z.opp p) = cpopp (emb p).
Proof. apply (pv_ext Cx Czero). intros k Hk. rewrite pc_opp, !emb_c, pc_opp, Cz_opp by exact Hk. reflexivity. Qed.
Lemma emb_mul n (p p' : zpv n) : emb (pmul Z 0%Z Z.add Z.mul Z.opp p p') = cpmul (emb p) (emb p').
Proof.
  apply (pv_ext Cx Czero). intros k Hk. rewrite pc_mul, !emb_c, pc_mul by exact Hk. unfold nconv. rewrite Cz_sum.
  apply rsum_ext. intros i Hi. rewrite Cz_mul, emb_c by exact Hi. f_equal. unfold sh. destruct (Nat.leb_spec i k); rewrite ?Cz_opp, emb_c by lia; reflexivity.
Qed.
Lemma emb_cst n c : emb (pcst Z 0%Z c : zpv n) = pcst Cx Czero (Cz c).
Proof. apply (pv_ext Cx Czero). intros k Hk. rewrite emb_c by exact Hk. unfold pcst. rewrite !pc_mkp by exact Hk. destruct (k =? 0)%nat; reflexivity. Qed.
Lemma emb_pint lg (a b : zpv (2 ^ lg)) : exists p : zpv (2 ^ S lg), @emb (2 ^ S lg) p = pint (emb a) (emb b).
Proof.
  exists (mkp Z (2 * 2 ^ lg) (fun k => if Nat.even k then pc Z 0%Z a (k / 2) else pc Z 0%Z b (k / 2))).
  apply (pv_ext Cx Czero). intros k Hk. assert (Hk' : (k < 2 * 2 ^ lg)%nat) by exact Hk. rewrite emb_c by exact Hk. unfold pint. rewrite (pc_mkp Cx Czero) by exact Hk. 
  etransitivity; [apply (f_equal Cz); apply (pc_mkp Z 0%Z); exact Hk|].
  assert (k / 2 < 2 ^ lg)%nat by (apply Nat.div_lt_upper_bound; lia).
  destruct (Nat.even k); rewrite emb_c by assumption; reflexivity.
Qed.

Lemma of_ints_ok lg (a : list Z) : length a = (2 ^ lg)%nat -> of_ints RF lg a = Ok (cpl (emb (ofl Z 0%Z (2 ^ lg) a))).
Proof.
  intros La. unfold of_ints. refine (fill_ok Cx Czero (2 ^ lg) _ (fresh RF (2 ^ lg)) _ (repeat_length _ _) _).
  intros i v Hi [L _]. rewrite (rd_Ok a i 0%Z) by lia. cbn [bind]. rewrite wr_Ok by (change (i < @length Cx v)%nat; rewrite L; exact Hi). rewrite pc_ofl by exact Hi. reflexivity.
Qed.
Lemma of_ints_neg_ok lg (a : list Z) : length a = (2 ^ lg)%nat -> of_ints_neg RF lg a = Ok (cpl (cpopp (emb (ofl Z 0%Z (2 ^ lg) a)))).
Proof.
  intros La. unfold of_ints_neg.
  refine (fill_ok Cx Czero (2 ^ lg) _ (fresh RF (2 ^ lg)) _ (repeat_length _ _) _).
  intros i v Hi [L _]. rewrite (rd_Ok a i 0%Z) by lia. cbn [bind]. rewrite wr_Ok by (change (i < @length Cx v)%nat; rewrite L; exact Hi). rewrite emb_c, pc_ofl by exact Hi.
  apply (f_equal (fun x => Ok (upd v i x))). apply Cx_eq; cbn; ring.
Qed.

(** ** the same facts on coefficient lists *)
Lemma Csigma_sum n f : Csigma n f = Csum n f.
Proof. induction n as [|n IH]; simpl; [reflexivity|rewrite IH; reflexivity]. Qed.
Lemma Cnegacyclic_mul n a b : Cnegacyclic n a b = cpl (cpmul (cpof n a) (cpof n b)).
Proof.
  apply (@list_ext Cx Czero); [unfold Cnegacyclic; rewrite tab_length, pl_length; reflexivity|]. unfold Cnegacyclic. rewrite tab_length. intros k Hk.
  rewrite nth_tab by exact Hk. rewrite Csigma_sum. change (nth k (cpl (cpmul (cpof n a) (cpof n b))) Czero) with (cc (cpmul (cpof n a) (cpof n b)) k).
  rewrite pc_mul by exact Hk. unfold nconv. apply rsum_ext. intros i Hi. rewrite pc_ofl by exact Hi. f_equal. unfold sh.
  destruct (Nat.leb_spec i k); rewrite pc_ofl by lia; reflexivity.
Qed.
Lemma tab_cpl n (f : nat -> Cx) (p : cpv n) : (forall k, (k < n)%nat -> f k = cc p k) -> tab n f = cpl p.
Proof.
  intros H. apply (@list_ext Cx Czero); [rewrite tab_length, pl_length; reflexivity|]. rewrite tab_length. intros k Hk. rewrite nth_tab by exact Hk. apply H; exact Hk.
Qed.
Lemma Cplus_add n a b : Cplus n a b = cpl (cpadd (cpof n a) (cpof n b)).
Proof. apply tab_cpl. intros k Hk. rewrite pc_add, !pc_ofl by exact Hk. reflexivity. Qed.
Lemma Cminus_sub n a b : Cminus n a b = cpl (cpsub (cpof n a) (cpof n b)).
Proof. apply tab_cpl. intros k Hk. rewrite pc_sub, !pc_ofl by exact Hk. reflexivity. Qed.
Lemma adjoint_padj n a : adjoint n a = cpl (padj (cpof n a)).
Proof.
  apply tab_cpl. intros k Hk. unfold padj. rewrite pc_mkp by exact Hk. destruct (Nat.eqb_spec k 0); rewrite pc_ofl by lia; reflexivity.
Qed.
Lemma evens_pev n a : evens n a = cpl (pev Cx Czero (cpof (2 * n) a)).
Proof. apply tab_cpl. intros k Hk. unfold pev. rewrite pc_mkp, pc_ofl by lia. reflexivity. Qed.
Lemma odds_pod n a : odds n a = cpl (pod Cx Czero (cpof (2 * n) a)).
Proof. apply tab_cpl. intros k Hk. unfold pod. rewrite pc_mkp, pc_ofl by lia. reflexivity. Qed.
Lemma interleave_pint n a b : interleave n a b = cpl (pint (cpof n a) (cpof n b)).
Proof.
  apply tab_cpl. intros k Hk. unfold pint. rewrite pc_mkp by exact Hk. assert (k / 2 < n)%nat by (apply Nat.div_lt_upper_bound; lia).
  destruct (Nat.even k); rewrite pc_ofl by assumption; reflexivity.
Qed.
Lemma Cnorm2_sum a : Cnorm2 a = Rsum (length a) (fun i => sq (nth i a Czero)).
Proof.
  induction a as [|x a IH]; [reflexivity|]. cbn [length]. rewrite (rsum_S_l _ _ _ _ _ _ _ RTheory). cbn [nth]. rewrite <- IH. reflexivity.
Qed.

Lemma fft_values lg a : (lg <= 10)%nat -> length a = (2 ^ lg)%nat -> fft RF exact_table lg a = Ok (values lg a).
Proof. intros Hl La. rewrite values_ft by exact La. apply fft_ok; assumption. Qed.
Lemma ifft_values lg a : (lg <= 10)%nat -> length a = (2 ^ lg)%nat -> ifft RF exact_table lg (values lg a) = Ok a.
Proof. intros Hl La. rewrite values_ft by exact La. rewrite ifft_ok by exact Hl. rewrite pl_ofl by exact La. reflexivity. Qed.
Lemma points_spec lg : (forall i, Cpow (fft_point lg i) (2 ^ lg) = Copp Cone) /\
  ((lg <= 10)%nat -> forall i j, (i < 2 ^ lg)%nat -> (j < 2 ^ lg)%nat -> fft_point lg i = fft_point lg j -> i = j).
Proof.
  split; [intros i; apply pt_root|]. intros Hl i j Hi Hj H. destruct (Nat.eq_dec i j) as [E|E]; [exact E|exfalso].
  destruct (ft_surj lg (tab (2 ^ lg) (fun k => if (k =? i)%nat then Cone else Czero)) Hl (tab_length _ _)) as [p Hp].
  assert (Ei := nth_ft lg p i Hi). assert (Ej := nth_ft lg p j Hj). rewrite <- Hp in Ei, Ej. rewrite nth_tab in Ei, Ej by assumption.
  rewrite Nat.eqb_refl in Ei. destruct (Nat.eqb_spec j i); [congruence|].
  assert (ev p i = ev p j) by (unfold ev; change (pt lg i) with (fft_point lg i); rewrite H; reflexivity).
  rewrite H0, <- Ej in Ei. injection Ei. lra.
Qed.
Lemma product_values lg a b o : length a = (2 ^ lg)%nat -> length b = (2 ^ lg)%nat -> length o = (2 ^ lg)%nat ->
  cpoly_mul RF lg (values lg a) (values lg b) o = Ok (values lg (Cnegacyclic (2 ^ lg) a b)) /\
  cpoly_add RF lg (values lg a) (values lg b) o = Ok (values lg (Cplus (2 ^ lg) a b)) /\
  cpoly_sub RF lg (values lg a) (values lg b) o = Ok (values lg (Cminus (2 ^ lg) a b)).
Proof.
  intros La Lb Lo. rewrite (values_ft lg a La), (values_ft lg b Lb). rewrite Cnegacyclic_mul, Cplus_add, Cminus_sub, <- !ft_values.
  split; [apply cpoly_mul_ok; exact Lo|]. split; [apply cpoly_add_ok; exact Lo|apply cpoly_sub_ok; exact Lo].
Qed.
Lemma split_values lg a o0 o1 : (S lg <= 10)%nat -> length a = (2 ^ S lg)%nat -> length o0 = (2 ^ lg)%nat -> length o1 = (2 ^ lg)%nat ->
  split_fft RF exact_table (S lg) (values (S lg) a) o0 o1 = Ok (values lg (evens (2 ^ lg) a), values lg (odds (2 ^ lg) a)).
Proof. intros Hl La L0 L1. rewrite values_ft by exact La. rewrite split_ok by assumption. rewrite evens_pev, odds_pod, <- !ft_values. reflexivity. Qed.
Lemma merge_values lg a b o : (S lg <= 10)%nat -> length a = (2 ^ lg)%nat -> length b = (2 ^ lg)%nat -> length o = (2 ^ S lg)%nat ->
  merge_fft RF exact_table (S lg) (values lg a) (values lg b) o = Ok (values (S lg) (interleave (2 ^ lg) a b)).
Proof.
  intros Hl La Lb Lo. rewrite (values_ft lg a La), (values_ft lg b Lb). rewrite merge_ok by assumption. rewrite interleave_pint.
  rewrite (ft_values (S lg)). reflexivity.
Qed.
Lemma split_merge lg y0 y1 o o0 o1 : (S lg <= 10)%nat -> length y0 = (2 ^ lg)%nat -> length y1 = (2 ^ lg)%nat ->
  length o = (2 ^ S lg)%nat -> length o0 = (2 ^ lg)%nat -> length o1 = (2 ^ lg)%nat ->
  exists y, merge_fft RF exact_table (S lg) y0 y1 o = Ok y /\ length y = (2 ^ S lg)%nat /\ split_fft RF exact_table (S lg) y o0 o1 = Ok (y0, y1).
Proof.
  intros Hl L0 L1 Lo Lo0 Lo1. destruct (ft_surj lg y0) as [a ->]; [lia|exact L0|]. destruct (ft_surj lg y1) as [b ->]; [lia|exact L1|].
  exists (@ft (S lg) (pint a b)). split; [apply merge_ok; assumption|]. split; [apply ft_length|]. rewrite split_ok by assumption. rewrite pev_pint, pod_pint. reflexivity.
Qed.
Lemma merge_split lg y o o0 o1 : (S lg <= 10)%nat -> length y = (2 ^ S lg)%nat ->
  length o = (2 ^ S lg)%nat -> length o0 = (2 ^ lg)%nat -> length o1 = (2 ^ lg)%nat ->
  exists y0 y1, split_fft RF exact_table (S lg) y o0 o1 = Ok (y0, y1) /\ merge_fft RF exact_table (S lg) y0 y1 o = Ok y.
Proof.
  intros Hl L Lo Lo0 Lo1. destruct (ft_surj (S lg) y) as [p ->]; [lia|exact L|].
  exists (@ft lg (pev Cx Czero p)), (@ft lg (pod Cx Czero p)). split; [apply split_ok; assumption|]. rewrite merge_ok by assumption. apply (f_equal Ok).
  f_equal. apply pint_eo.
Qed.
Lemma adj_values lg a : length a = (2 ^ lg)%nat -> adj_poly RF lg (values lg a) = Ok (values lg (adjoint (2 ^ lg) a)).
Proof. intros La. rewrite values_ft by exact La. rewrite adj_poly_ok, adjoint_padj, <- ft_values. reflexivity. Qed.
Lemma norm_values lg a : length a = (2 ^ lg)%nat -> sqrd_norm_c RF lg (values lg a) = Ok (Cnorm2 a).
Proof.
  intros La. rewrite values_ft by exact La. rewrite sqnorm_ok, Cnorm2_sum, La. apply (f_equal Ok). apply rsum_ext. intros i Hi. rewrite pc_ofl by exact Hi. reflexivity.
Qed.
