(** P_fsafek.v -- ff_sampling and signing in rounded arithmetic: the root of the tree, the signing loop and the signing functions. *)
From Verif Require Import Base Ring Poly Spec SpecR SpecF M_xform P_xform M_codec P_codec M_sig M_verify M_float M_exact P_exact M_samp M_fft M_ntru P_ntru M_tree P_brv P_cplx P_fft P_tree P_treex P_gs P_sign P_signb P_norm P_l2 P_err P_ferr P_near P_float P_fmerge P_fnorm P_fsign P_fgs P_ftree P_ftreek P_fsafe P_fsafex P_fsafey.
From Verif Require P_def P_defx P_fsv P_sigx P_comp P_verifyx P_fkey P_ftree64.
From Coq Require Import Ring_theory Ring Lra Psatz.
Open Scope R_scope.

Section Root.
Variable F : fops.
Variable fin : D F -> Prop.
Variable val : D F -> R.
Hypothesis A : accurate F fin val.
Notation C := (D F * D F)%type.
Notation d := (c0 F).
Notation X := (X F val).
Notation apx := (apx F fin val).
Notation vfin := (vfin F fin).
Notation near := (near F fin val).
Variable ztab : list C.
Hypothesis HZ : table_near F fin val ztab.
Variable h : nat.
Notation lg := (S h).
Notation N := (2 ^ S h)%nat.
Hypothesis Hlg : falcon_lg lg.
Variables f g F_ G_ : list Z.
Hypotheses (Lf : length f = N) (Lg : length g = N) (LF : length F_ = N) (LG : length G_ = N).
Hypothesis HN : ntru N f g F_ G_.
Hypothesis HGS : gs_norm lg f g <= 168224122 / 10000.
Hypotheses (SF : (sqnorm F_ <= 16777216)%Z) (SG : (sqnorm G_ <= 16777216)%Z).
Notation ddv := (dd lg f g).
Notation ddov := (ddo lg f g).
Notation wvv := (P_norm.wv h f g F_ G_).
Lemma le10 : (lg <= 10)%nat. Proof. destruct Hlg as [E|E]; rewrite E; lia. Qed.
Lemma ddI : inr N ddv. Proof. apply (dd_in h Hlg f g F_ G_); assumption. Qed.
Lemma ddoI : inr N ddov. Proof. apply (ddo_in h Hlg f g F_ G_); assumption. Qed.
Lemma sqrt_ddo i : (i < N)%nat -> sqrt (ddov i) = 12289 / sqrt (ddv i).
Proof.
  intros Hi. assert (B := ddI i Hi). destruct (sqrt_in _ B) as [R1 _]. assert (Q := sqrt_sqrt (ddv i) ltac:(lra)). change (ddov i) with (151019521 / ddv i). rewrite <- Q at 1. set (s := sqrt (ddv i)) in *.
  replace (151019521 / (s * s)) with (12289 / s * (12289 / s)) by (field; lra). apply sqrt_square. apply Rlt_le, Rdiv_lt_0_compat; lra.
Qed.
Lemma wv_mod i : (i < N)%nat -> Cm (wvv i) <= 185364 * sqrt (ddv i).
Proof.
  intros Hi. assert (B := ddI i Hi). destruct (sqrt_in _ B) as [R1 _]. assert (Q := sqrt_sqrt (ddv i) ltac:(lra)). apply sq_le; [lra|]. rewrite Cm_sq, (wv_sq h f g F_ G_ HN i Hi).
  assert (D2 := dd2_rng h Hlg f g F_ G_ Lf Lg LF LG HN HGS SF SG i Hi). replace (185364 * sqrt (ddv i) * (185364 * sqrt (ddv i))) with (34359812496 * (sqrt (ddv i) * sqrt (ddv i))) by ring. rewrite Q.
  assert (ddv i * dd2 lg F_ G_ i <= ddv i * 34359738368) by (apply Rmult_le_compat_l; lra). lra.
Qed.
Lemma wv_herm i : (i < N)%nat -> wvv (N - 1 - i)%nat = Cconj (wvv i).
Proof. intros Hi. unfold P_norm.wv. rewrite !ev_compl by exact Hi. rewrite Cconj_add, !Cconj_mul. reflexivity. Qed.
Lemma root_pl : exists pl : cpv N, herm pl /\ forall i, (i < N)%nat -> ev pl i = Cscal (wvv i) (/ ddv i).
Proof.
  destruct (herm_list lg (tab N (fun i => Cscal (wvv i) (/ ddv i))) le10) as (pl & E & Hp); [apply tab_length| |].
  - intros i Hi. rewrite !nth_tab by lia. rewrite wv_herm by exact Hi. rewrite (P_treex.dd_sym lg f g) by exact Hi. generalize (wvv i). intros [u v]. unfold Cscal, Cconj. cbn [fst snd]. f_equal; ring.
  - exists pl. split; [exact Hp|]. intros i Hi. rewrite <- (nth_ft lg pl i Hi), <- E. rewrite nth_tab by exact Hi. reflexivity.
Qed.

Variable fuel : nat.
Variable smin : D F.
Variable rng : rng_t.
Hypothesis SZ : forall mu s pos, fin mu -> fin s -> 127 / 100 <= val s <= 179 / 100 -> Rabs (val mu) <= 2147480000 ->
  samplerz F fuel mu s smin rng pos <> UB /\ forall v pos', samplerz F fuel mu s smin rng pos = Ok (v, pos') -> Rabs (IZR v - val mu) <= 19.
Lemma root_safe (T l : list C) a b t0 t1 c pos : stored F N lg T 0 (ntree F (sigma_value F lg) (Node F l a b)) -> ((lg + 1) * N <= length T)%nat -> vfin N l ->
  (forall i, (i < N)%nat -> Cm (Csub (Cmul (X l i) (Cof (ddv i))) (wvv i)) <= 1 / 10000) -> near PP h ddv a -> near PP h ddov b ->
  apx N t0 (T0 lg F_ c) (1 / 100000) -> apx N t1 (T1 lg f c) (1 / 100000) -> nrm N (T0 lg F_ c) <= 135000000 -> nrm N (T1 lg f c) <= 135000000 ->
  ff_sampling F ztab fuel lg 0 t0 t1 T 0 smin rng pos <> UB.
Proof.
  intros St LT Fl El Na Nb A0 A1 N0 N1. assert (H10 := le10). cbn [ntree stored] in St. destruct St as [_ [Sl [Sa Sb]]]. assert (E2 : (2 ^ S h = 2 * 2 ^ h)%nat) by reflexivity.
  assert (Rl : rds T 0 N = Ok l).
  { rewrite rds_ok by (simpl Nat.mul in LT; lia). f_equal. apply (@list_ext C d); [rewrite slice_length by (simpl Nat.mul in LT; lia); symmetry; apply Fl|]. intros i Hi. rewrite slice_length in Hi by (simpl Nat.mul in LT; lia). rewrite nth_slice by exact Hi. apply Sl, Hi. }
  assert (HL := leaves_rng h Hlg f g F_ G_ Lf Lg LF LG HN HGS). rewrite (root_tree_node h f g F_ G_ HN) in HL. cbn [P_tree.leaves] in HL. apply Forall_app in HL. destruct HL as [La Lb].
  assert (Hh : INR h <= 9). { replace 9 with (INR 9) by (rewrite INR_IZR_INZ; reflexivity). apply le_INR. lia. } assert (Hh0 := pos_INR h).
  assert (Ow : (2 ^ (1 + h) = N)%nat) by reflexivity.
  assert (CL : cl F fin val ztab fuel smin rng T h 1 (0 + 2 ^ 0 * N) ddv (Wh h) (kh h) (135000000 + 16 * 2700000)).
  { apply (sub_safe F fin val A ztab HZ fuel smin rng T SZ lg Hlg) with (t := a); try assumption; [exact ddI|intros i Hi; apply (P_treex.dd_sym lg f g i Hi)| | |lra].
    - rewrite Ow. simpl Nat.mul in LT. simpl (2 ^ 0)%nat. nia.
    - rewrite Ow. simpl (2 ^ 0)%nat. rewrite Nat.mul_1_l. exact Sa. }
  assert (CR : cl F fin val ztab fuel smin rng T h 1 (0 + 2 ^ 0 * N + 2 ^ h) ddov (Wh h) (kh h) 135000000).
  { apply (sub_safe F fin val A ztab HZ fuel smin rng T SZ lg Hlg) with (t := b); try assumption; [exact ddoI|intros i Hi; unfold ddo; rewrite (P_treex.dd_sym lg f g i Hi); reflexivity| | |lra].
    - rewrite Ow. simpl Nat.mul in LT. simpl (2 ^ 0)%nat. nia.
    - rewrite Ow. simpl (2 ^ 0)%nat. rewrite Nat.mul_1_l. exact Sb. }
  destruct root_pl as (pl & Hpl & Epl).
  destruct (ft_surj lg (tab N (X t0)) H10 (tab_length _ _)) as [q0 Eq0]. destruct (ft_surj lg (tab N (X t1)) H10 (tab_length _ _)) as [q1 Eq1].
  assert (X0 : forall i, (i < N)%nat -> X t0 i = ev q0 i) by (intros i Hi; rewrite <- (nth_ft lg q0 i Hi), <- Eq0; rewrite nth_tab by exact Hi; reflexivity).
  assert (X1 : forall i, (i < N)%nat -> X t1 i = ev q1 i) by (intros i Hi; rewrite <- (nth_ft lg q1 i Hi), <- Eq1; rewrite nth_tab by exact Hi; reflexivity).
  assert (D0 : nrm N (fun i => Csub (ev q0 i) (T0 lg F_ c i)) <= 1 / 100000) by (eapply Rle_trans; [|apply A0]; right; apply nrm_ext; intros i Hi; rewrite X0 by exact Hi; reflexivity).
  assert (D1 : nrm N (fun i => Csub (ev q1 i) (T1 lg f c i)) <= 1 / 100000) by (eapply Rle_trans; [|apply A1]; right; apply nrm_ext; intros i Hi; rewrite X1 by exact Hi; reflexivity).
  assert (Ml : forall i, (i < N)%nat -> Cm (ev pl i) <= 62850 /\ Cm (Csub (X l i) (ev pl i)) * ddv i <= 1 / 10000 /\ Cm (ev pl i) <= 16 * sqrt (ddov i)).
  { intros i Hi. assert (B := ddI i Hi). destruct (sqrt_in _ B) as [R1 _]. assert (Q := sqrt_sqrt (ddv i) ltac:(lra)). assert (W := wv_mod i Hi). rewrite (sqrt_ddo i Hi), (Epl i Hi).
    assert (Iv : 0 < / ddv i) by (apply Rinv_0_lt_compat; lra). assert (Mi : Cm (Cscal (wvv i) (/ ddv i)) <= 185364 / sqrt (ddv i)).
    { rewrite Cm_scal by lra. eapply Rle_trans; [apply Rmult_le_compat_l; [lra|exact W]|]. right. rewrite <- Q at 1. field. lra. }
    assert (I2 : / sqrt (ddv i) <= / (29495 / 10000)) by (apply Rinv_le_contravar; lra). assert (I3 : 0 < / sqrt (ddv i)) by (apply Rinv_0_lt_compat; lra).
    assert (I4 : / (29495 / 10000) <= 33905 / 100000) by lra. unfold Rdiv in Mi. unfold Rdiv at 2. set (iv := / sqrt (ddv i)) in *. set (cm := Cm (Cscal _ _)) in *.
    split; [clear - Mi I2 I4; lra|]. split; [|clear - Mi I3; lra]. clear cm Mi iv I2 I3 I4.
    eapply Rle_trans; [|exact (El i Hi)]. right. rewrite <- (Cm_real (ddv i)) at 2 by lra. rewrite <- Cm_mul. f_equal. generalize (X l i) (wvv i). intros [u v] [u' v']. apply Cx_eq; unfold Cof; cx; unfold Cscal; cbn [fst snd]; field; lra. }
  assert (WB : 0 <= Wh h <= 2599000). { split; [apply Wh_pos|]. destruct Hlg as [E|E]; injection E as ->; [assert (G := Wh_bound 8 (le_n _)); lra|exact Wh_9]. }
  assert (kB : 1 <= kh h <= 105 / 100) by (unfold kh; lra).
  assert (ep : 63000 / 18 = 3500) by lra.
  set (y := 42 / 1000). assert (kyB : 0 <= kh h * (y + 3500) <= 105 / 100 * (y + 3500)) by (unfold y; split; [apply Rmult_le_pos; lra|apply Rmult_le_compat_r; lra]).
  refine (proj1 (node_run F fin val A ztab HZ fuel smin rng T h 0 0 ddv ddov l pl (1 / 122890000) 63000 16 (Wh h) (kh h) 135000000 135000000 H10 ddI ddoI Rl Fl Hpl _ _ _ _ _ _ _ _ CR CL (tp0 lg F_ c) (tp1 lg f c) q0 q1 t0 t1 3000 y pos
    (herm_tp0 h F_ c) (herm_tp1 h f c) N0 N1 (proj1 A0) (proj1 A1) X0 X1 _ _ _ _ _ _ _)); try lra.
  - intros i Hi. destruct (Ml i Hi) as (_ & M2 & _). assert (B := ddI i Hi). destruct (sqrt_in _ B) as [R1 _]. assert (Q := sqrt_sqrt (ddv i) ltac:(lra)). rewrite (sqrt_ddo i Hi). set (s := sqrt (ddv i)) in *. rewrite <- Q in M2.
    apply Rmult_le_reg_r with s; [lra|]. replace (1 / 122890000 * (12289 / s) * s) with (1 / 10000) by (field; lra). lra.
  - intros i Hi. destruct (Ml i Hi) as (M1 & M2 & _). assert (B := ddI i Hi). assert (G := Cm_le_add (X l i) (ev pl i)). assert (P := Cm_pos (Csub (X l i) (ev pl i))).
    assert (Cm (Csub (X l i) (ev pl i)) * (87 / 10) <= 1 / 10000) by (eapply Rle_trans; [apply Rmult_le_compat_l; [exact P|apply B]|exact M2]). lra.
  - intros i Hi. apply Ml, Hi.
  - eapply Rle_trans; [apply (nrm_le_add N _ (T0 lg F_ c))|]. apply Rle_trans with (135000000 + 1 / 100000); [|lra]. apply Rplus_le_compat; assumption.
  - eapply Rle_trans; [apply (nrm_le_add N _ (T1 lg f c))|]. apply Rle_trans with (135000000 + 1 / 100000); [|lra]. apply Rplus_le_compat; assumption.
  - eapply Rle_trans; [apply (wn_nrm N ddov _ ddoI)|]. unfold y. apply Rle_trans with (4172 * (1 / 100000)); [apply Rmult_le_compat_l; [lra|exact D1]|lra].
  - eapply Rle_trans; [apply wn_tri|]. apply Rle_trans with (4172 * (1 / 100000) + 4172 * (62850 * (1 / 100000))); [|lra]. apply Rplus_le_compat.
    + eapply Rle_trans; [apply (wn_nrm N ddv _ ddI)|]. apply Rmult_le_compat_l; [lra|exact D0].
    + eapply Rle_trans; [apply (wn_nrm N ddv _ ddI)|]. apply Rmult_le_compat_l; [lra|]. eapply Rle_trans; [apply (nrm_mul N _ _ 62850); [lra|intros i Hi; apply Ml, Hi]|]. apply Rmult_le_compat_l; [lra|exact D1].
  - rewrite ep. unfold y. lra.
  - rewrite ep. unfold y in *. lra.
  - rewrite ep. unfold y in *. lra.
Qed.
End Root.

Lemma compress_near lg s (sig : list Z) : falcon_lg lg -> (sig_bytes lg <= length sig)%nat -> length s = (2 ^ lg)%nat -> (sqnorm s <= beta2 lg + 1000)%Z ->
  exists b e, compress_sig lg s sig = Ok (b, e) /\ length e = length sig.
Proof.
  intros Hlg Ls L2 Hn. destruct (P_sigx.sig_dims lg Hlg) as (D1 & D2 & D3 & D4). destruct (P_comp.compress_ok lg s (repeat 0%Z (sig_bytes lg)) Hlg L2 ltac:(rewrite repeat_length; congruence)) as [H1 _].
  destruct H1 as (body & E & _ & L & _).
  - pose proof (P_comp.tot_norm s 256 ltac:(lia)) as T. rewrite L2 in T. unfold beta2 in Hn.
    destruct Hlg as [-> | ->]; cbn [Nat.eqb] in Hn; change (Z.of_nat (2 ^ 9)) with 512%Z in T; change (Z.of_nat (2 ^ 10)) with 1024%Z in T;
    change (2 ^ Z.of_nat 9)%Z with 512%Z; change (2 ^ Z.of_nat 10)%Z with 1024%Z; lia.
  - destruct (compress_split lg s _ _ _ Hlg ltac:(rewrite repeat_length; apply le_n) E) as [body' [Lb [_ H]]]. specialize (H sig Ls). eexists _, _. split; [exact H|].
    rewrite !app_length, firstn_length, skipn_length, Lb. lia.
Qed.
Lemma dT_wide : dT 131072 (e2 4096) <= 1 / 100000.
Proof. apply (P_fsv.mT_num _ _ (67 / 1000)); P_fsv.num. Qed.
Lemma dT_f : dT 4192 (e1 131) <= 1 / 100000.
Proof. apply (P_fsv.mT_num _ _ (213 / 100000)); P_fsv.num. Qed.

Section Sign.
Variable F : fops.
Variable fin : D F -> Prop.
Variable val : D F -> R.
Hypothesis A : accurate F fin val.
Hypothesis RE : realness F fin val.
Notation C := (D F * D F)%type.
Variable ztab : list C.
Hypothesis HZ : table_near F fin val ztab.
Variable lg : nat.
Notation N := (2 ^ lg)%nat.
Hypothesis Hlg : falcon_lg lg.
Hypothesis SZ : forall fuel mu s rng pos, byte_stream rng -> fin mu -> fin s -> 127 / 100 <= val s <= 179 / 100 -> Rabs (val mu) <= 2147480000 ->
  samplerz F fuel mu s (sigma_min F lg) rng pos <> UB /\ forall v pos', samplerz F fuel mu s (sigma_min F lg) rng pos = Ok (v, pos') -> Rabs (IZR v - val mu) <= 19.
Variables f g F_ G_ : list Z.
Hypotheses (Lf : length f = N) (Lg : length g = N) (LF : length F_ = N) (LG : length G_ = N).
Hypothesis HN : ntru N f g F_ G_.
Hypothesis HGS : gs_norm lg f g <= 168224122 / 10000.
Hypotheses (SF : (sqnorm F_ <= 16777216)%Z) (SG : (sqnorm G_ <= 16777216)%Z).
Lemma fg_sq : (sqnorm f <= 131 * 131 /\ sqnorm g <= 131 * 131)%Z.
Proof.
  assert (M : IZR (sqnorm f + sqnorm g) <= gs_norm lg f g) by apply Rmax_l. assert (H : IZR (sqnorm f + sqnorm g) <= 17161) by lra. apply le_IZR in H.
  assert (Pf := P_signx.sqnorm_pos f). assert (Pg := P_signx.sqnorm_pos g). lia.
Qed.
Lemma lgle : (lg <= 10)%nat. Proof. destruct Hlg as [E|E]; rewrite E; lia. Qed.
Lemma ev_le a K i : length a = N -> (0 <= K)%Z -> (sqnorm a <= K * K)%Z -> (i < N)%nat -> Cm (ev (emb (ofl Z 0%Z N a)) i) <= 32 * IZR K.
Proof. intros La HK H Hi. apply (ev_sup lg lgle); [|exact Hi]. apply P_fsv.nrm_list; assumption. Qed.

(** the matrix, the tree, and the run of the sampler from any target *)
Lemma key_run (T0' : list C) : ((lg + 1) * N <= length T0')%nat ->
  exists B T, compute_matrix_B F ztab lg f g F_ G_ = Ok B /\ compute_falcon_tree F ztab lg B T0' = Ok T /\ blocks F fin val lg f g F_ G_ 131 4096 B /\
    forall fuel rng t0 t1 c pos, byte_stream rng -> apx F fin val N t0 (T0 lg F_ c) (1 / 100000) -> apx F fin val N t1 (T1 lg f c) (1 / 100000) -> nrm N (T0 lg F_ c) <= 135000000 -> nrm N (T1 lg f c) <= 135000000 ->
      ff_sampling F ztab fuel lg 0 t0 t1 T 0 (sigma_min F lg) rng pos <> UB.
Proof.
  intros LT. assert (exists h, lg = S h) as [h Eh] by (destruct Hlg as [E|E]; rewrite E; eexists; reflexivity). revert SZ. generalize (sigma_min F lg). intros smin SZ'. subst lg.
  destruct (P_ftree64.key_tree F fin val A RE ztab HZ h f g F_ G_ T0' Hlg Lf Lg LF LG HN HGS SF SG LT) as (B & T & l & a & b & E1 & Bl & E2 & L2 & St & Fl & El & Na & Nb).
  exists B, T. split; [exact E1|]. split; [exact E2|]. split; [exact Bl|]. intros fuel rng t0 t1 c pos Hr A0 A1 N0 N1.
  apply (root_safe F fin val A ztab HZ h Hlg f g F_ G_ Lf Lg LF LG HN HGS SF SG fuel smin rng (fun mu s p => SZ' fuel mu s rng p Hr) T l a b t0 t1 c pos); try assumption. rewrite L2. exact LT.
Qed.

Lemma sign_bt_safe xof fuel sfuel B T0' T msg sig rng pos : (forall a, byte_stream (xof a)) -> byte_stream rng ->
  (sig_bytes lg <= length sig)%nat -> ((lg + 1) * N <= length T0')%nat ->
  compute_matrix_B F ztab lg f g F_ G_ = Ok B -> compute_falcon_tree F ztab lg B T0' = Ok T ->
  sign_bt F ztab fuel sfuel xof lg B T msg sig rng pos <> UB.
Proof.
  intros Hx Hr Ls LT HB HT. destruct (key_run T0' LT) as (B' & T' & E1 & E2 & Bl & Run). assert (B' = B) by congruence. subst B'. assert (T' = T) by congruence. subst T'. clear E1 E2.
  unfold sign_bt, rng_read. set (salt := map _ _).
  destruct (proj1 (P_verifyx.hash_point_spec xof lg salt msg (Hx _)) sfuel (repeat 0%Z N) (repeat_length _ _)) as [[c [E [_ [Lc Hc]]]]|E]; rewrite E; cbn [bind]; [|discriminate]. clear E.
  destruct fg_sq as [Sqf Sqg].
  assert (Uf : forall i, (i < N)%nat -> Cm (ev (emb (ofl Z 0%Z N f)) i) <= 4192) by (intros i Hi; assert (G := ev_le f 131 i Lf ltac:(lia) Sqf Hi); lra).
  assert (Ug : forall i, (i < N)%nat -> Cm (ev (emb (ofl Z 0%Z N g)) i) <= 4192) by (intros i Hi; assert (G := ev_le g 131 i Lg ltac:(lia) Sqg Hi); lra).
  assert (UF : forall i, (i < N)%nat -> Cm (ev (emb (ofl Z 0%Z N F_)) i) <= 131072) by (intros i Hi; assert (G := ev_le F_ 4096 i LF ltac:(lia) SF Hi); lra).
  assert (UG : forall i, (i < N)%nat -> Cm (ev (emb (ofl Z 0%Z N G_)) i) <= 131072) by (intros i Hi; assert (G := ev_le G_ 4096 i LG ltac:(lia) SG Hi); lra).
  assert (Hci : forall i, (i < N)%nat -> (0 <= nth i c 0 < 12289)%Z). { intros i Hi. rewrite Forall_forall in Hc. apply (Hc (nth i c 0%Z)). apply nth_In. lia. }
  destruct (target_apx F fin val A ztab HZ lg lgle f g F_ G_ Lf Lg LF LG 131 4096 ltac:(lra) ltac:(lra) 4192 131072 ltac:(lra) ltac:(lra) Uf Ug UF UG B Bl c Lc Hci) as (t0 & t1 & Et & A0 & A1 & N0 & N1).
  rewrite Et. cbn [bind]. replace (beta2_values lg) with (beta2 lg) by (destruct Hlg as [->| ->]; reflexivity).
  apply (apx_weak F fin val _ _ _ _ (1 / 100000)) in A0; [|exact dT_wide]. apply (apx_weak F fin val _ _ _ _ (1 / 100000)) in A1; [|exact dT_f].
  assert (M0 : nrm N (T0 lg F_ c) <= 135000000) by (eapply Rle_trans; [exact N0|unfold nT; lra]). assert (M1 : nrm N (T1 lg f c) <= 135000000) by (eapply Rle_trans; [exact N1|unfold nT; lra]).
  assert (Hb : (0 <= beta2 lg <= 68700 * Z.of_nat N)%Z) by (destruct Hlg as [->| ->]; vm_compute; split; congruence).
  assert (Loop : forall fuel pos sig, (sig_bytes lg <= length sig)%nat ->
    sign_loop F ztab fuel sfuel lg B T t0 t1 (sigma_min F lg) (beta2 lg) rng pos sig <> UB /\
    forall sig' pos', sign_loop F ztab fuel sfuel lg B T t0 t1 (sigma_min F lg) (beta2 lg) rng pos sig = Ok (sig', pos') -> length sig' = length sig).
  { clear fuel pos sig Ls salt. induction fuel as [|fuel IH]; intros pos sig Ls; cbn [sign_loop]; [split; discriminate|].
    assert (Dv := Run sfuel rng t0 t1 c pos Hr A0 A1 M0 M1).
    destruct (ff_sampling F ztab sfuel lg 0 t0 t1 T 0 (sigma_min F lg) rng pos) as [[[z0 z1] p]| |] eqn:ES; cbn [bind]; [|destruct (Dv eq_refl)|split; discriminate].
    destruct (step_float F fin val A ztab HZ lg lgle f g F_ G_ Lf Lg LF LG 131 4096 ltac:(lra) ltac:(lra) 4192 131072 ltac:(lra) ltac:(lra) Uf Ug UF UG B Bl HN 12500 (72 / 1000) sfuel T c _ (beta2 lg) rng pos p z0 z1 t0 t1 P_fsv.good_wide Lc Hci Hb Et ES)
      as (s0 & s1 & n0 & n1 & E2 & E3 & E4 & Acc).
    rewrite E2. cbn [bind]. rewrite E3. cbn [bind]. rewrite E4. cbn [bind]. destruct (fle F (fadd F n0 n1) (fofz F (beta2 lg))) eqn:E5; [|apply IH; exact Ls].
    destruct (Acc eq_refl) as (s1' & s2 & y0 & y1 & E6 & E7 & _ & _ & Es2 & Bs2). rewrite E6. cbn [bind]. rewrite E7. cbn [bind].
    assert (L2 : length s2 = N) by (rewrite Es2; apply tab_length).
    assert (Q2 : (sqnorm s2 <= beta2 lg + 1000)%Z).
    { assert (P1 := P_signx.sqnorm_pos (Spec.psub N (Spec.psub N c (negacyclic N y0 g)) (negacyclic N y1 G_))). rewrite plus_IZR in Bs2. apply IZR_le in P1. apply le_IZR. rewrite plus_IZR. lra. }
    destruct (compress_near lg s2 sig Hlg Ls L2 Q2) as [b [e [Ec Le]]]. rewrite Ec. cbn [bind].
    destruct b; [|assert (Ls' : (sig_bytes lg <= length e)%nat) by (rewrite Le; exact Ls); destruct (IH p e Ls') as [I1 I2]; split; [exact I1|intros sig' pos' H; rewrite <- Le; exact (I2 _ _ H)]]. split; [discriminate|]. intros sig' pos' H. injection H as <- <-. exact Le. }
  destruct (Loop fuel (pos + 40)%nat sig Ls) as [D1 D2].
  destruct (sign_loop F ztab fuel sfuel lg B T t0 t1 (sigma_min F lg) (beta2 lg) rng (pos + 40) sig) as [[s p]| |] eqn:EL; cbn [bind]; [|destruct (D1 eq_refl)|discriminate].
  specialize (D2 _ _ eq_refl). assert (41 <= sig_bytes lg)%nat by (destruct Hlg as [->| ->]; vm_compute; lia).
  rewrite wr_Ok by lia. cbn [bind]. rewrite wrs_ok; [discriminate|]. unfold salt. rewrite map_length, seq_length, upd_length. lia.
Qed.

Lemma sign_safe xof fuel sfuel skey msg sig rng : (forall a, byte_stream (xof a)) -> byte_stream rng -> (sig_bytes lg <= length sig)%nat -> values_ge lg f (1 / 1000) ->
  decode_skey lg skey (repeat 0%Z N) (repeat 0%Z N) (repeat 0%Z N) = Ok (true, (f, g, F_)) ->
  sign F ztab fuel sfuel xof lg skey msg sig rng <> UB.
Proof.
  intros Hx Hr Ls Hv HD. unfold sign. rewrite HD. cbn [bind negb]. destruct fg_sq as [Sqf Sqg].
  rewrite (P_fkey.recompute_list F fin val A ztab HZ lg f g F_ G_ Hlg Lf Lg LF LG HN Sqf Sqg SF SG Hv (repeat 0%Z N) (repeat_length _ _)). cbn [bind].
  assert (LT : ((lg + 1) * N <= length (fresh F (N * (lg + 1))))%nat). { change (fresh F (N * (lg + 1))) with (repeat (c0 F) (N * (lg + 1))). rewrite repeat_length. lia. }
  destruct (key_run _ LT) as (B & T & E1 & E2 & _). rewrite E1. cbn [bind]. rewrite E2. cbn [bind].
  assert (Dv := sign_bt_safe xof fuel sfuel B _ T msg sig rng 0 Hx Hr Ls LT E1 E2).
  destruct (sign_bt F ztab fuel sfuel xof lg B T msg sig rng 0) as [[s p]| |]; [discriminate|destruct (Dv eq_refl)|discriminate].
Qed.
End Sign.
