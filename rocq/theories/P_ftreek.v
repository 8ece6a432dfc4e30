(** P_ftreek.v -- compute_falcon_tree in rounded arithmetic: every cell close to the cell of the exact tree. *)
From Verif Require Import Base Ring Poly Spec SpecR SpecF M_xform P_xform M_codec P_codec M_float M_exact P_exact M_samp M_fft M_ntru P_ntru M_tree P_brv P_cplx P_fft P_tree P_treex P_gs P_sign P_leaf P_l2 P_err P_ferr P_near P_float P_fmerge P_fnorm P_fsign P_fgs P_ftree P_ftreex.
From Verif Require P_norm P_defx P_fkey P_fsv P_signx.
From Coq Require Import Ring_theory Ring Lra Psatz.
Open Scope R_scope.

Lemma region_split W h off k : (2 ^ S h <= W)%nat -> region W (S h) off k -> (off <= k < off + 2 ^ S h)%nat \/ region W h (off + W) k \/ region W h (off + W + 2 ^ h) k.
Proof.
  intros HW [l [Hl H]]. change (2 ^ S h)%nat with (2 ^ h + (2 ^ h + 0))%nat in *. destruct l as [|l]; [left; lia|right].
  destruct (Nat.lt_ge_cases k (off + W + l * W + 2 ^ h)) as [K|K]; [left|right]; exists l; simpl in H; split; lia.
Qed.
Lemma region_all lg k : (k < (lg + 1) * 2 ^ lg)%nat -> region (2 ^ lg) lg 0 k.
Proof.
  intros H. assert (P := pow2_pos lg). exists (k / 2 ^ lg)%nat. assert (D := Nat.div_mod k (2 ^ lg) ltac:(lia)). assert (M := Nat.mod_upper_bound k (2 ^ lg) ltac:(lia)).
  split; [|lia]. assert (k / 2 ^ lg < lg + 1)%nat by (apply Nat.div_lt_upper_bound; lia). lia.
Qed.
Lemma sub_node' h dv : (S (S h) <= 10)%nat -> (forall i, (i < 2 ^ S (S h))%nat -> 0 < dv i) ->
  sub (S h) (rv (2 ^ S (S h)) dv) = Node RF (vl10 RF (2 ^ S h) (rv (2 ^ S h) (am2 dv)) (map (cconj RF) (vspl1 RF exact_table (S h) (rv (2 ^ S (S h)) dv)))) (sub h (rv (2 ^ S h) (am2 dv))) (sub h (rv (2 ^ S h) (hm2 dv))).
Proof.
  intros Hh Hd. assert (P2 := pow2_pos (S h)). assert (Hd' : forall i, (i < 2 * 2 ^ S h)%nat -> 0 < dv i) by (intros; apply Hd; change (2 ^ S (S h))%nat with (2 * 2 ^ S h)%nat; lia).
  change (sub (S h) (rv (2 ^ S (S h)) dv)) with
    (ltree RF exact_table (S h) (vspl0 RF (S h) (rv (2 ^ S (S h)) dv)) (map (cconj RF) (vspl1 RF exact_table (S h) (rv (2 ^ S (S h)) dv))) (map (cconj RF) (vspl0 RF (S h) (rv (2 ^ S (S h)) dv)))).
  rewrite spl0_rv, rv_conj, ltree_sub. change (fun i => (dv (2 * i)%nat + dv (2 * i + 1)%nat) / 2) with (am2 dv). f_equal. f_equal.
  etransitivity; [apply d11_rv; intros i Hi; apply Rgt_not_eq; apply (am2_pos (2 ^ S h)); assumption|].
  apply tab_ext. intros i Hi. apply (f_equal Cof). unfold hm2. f_equal. f_equal. apply spl1_rv; assumption.
Qed.

Section Key.
Variable F : fops.
Variable fin : D F -> Prop.
Variable val : D F -> R.
Hypothesis A : accurate F fin val.
Hypothesis RE : realness F fin val.
Notation C := (D F * D F)%type.
Notation d := (c0 F).
Notation cv := (cv F val).
Notation X := (X F val).
Notation apx := (apx F fin val).
Notation vfin := (vfin F fin).
Notation cfin := (cfin F fin).
Variable ztab : list C.
Hypothesis HZ : table_near F fin val ztab.
Notation near := (near F fin val).
Definition PP : R := 11 / 10000.

(** ** leaves *)
Lemma lit9 m : (0 <= m <= 200000000000)%Z -> fin (flit F m 9) /\ Rabs (val (flit F m 9) - IZR m / 1000000000) <= 1 / 10000000000000.
Proof.
  intros Hm. unfold flit. destruct (acc_int _ _ _ A m) as [F1 E1]; [change (2 ^ 53)%Z with 9007199254740992%Z; lia|]. destruct (acc_int _ _ _ A (10 ^ 9)%Z) as [F2 E2]; [cbv; discriminate|]. change (IZR (10 ^ 9)) with 1000000000 in E2.
  assert (B : 0 <= IZR m <= 200000000000) by (split; [apply (IZR_le 0)|apply IZR_le]; lia).
  destruct (acc_div _ _ _ A _ _ F1 F2) as [F3 E3]; [rewrite E1; apply big_h; rewrite Rabs_pos_eq; lra|rewrite E2, Rabs_pos_eq; lra|]. split; [exact F3|]. rewrite E1, E2 in E3. eapply Rle_trans; [exact E3|].
  rewrite Rabs_pos_eq by (apply Rmult_le_pos; lra). assert (T := tiny_30). rewrite ulp_val. lra.
Qed.
Lemma sigma_apx lg : falcon_lg lg -> fin (sigma_value F lg) /\ Rabs (val (sigma_value F lg) - sigma_value RF lg) <= 1 / 10000000000000.
Proof. intros [-> | ->]; [rewrite sigma_9|rewrite sigma_10]; apply lit9; lia. Qed.
Lemma sigma_rng lg : falcon_lg lg -> 165 <= sigma_value RF lg <= 169.
Proof. intros [-> | ->]; [rewrite sigma_9|rewrite sigma_10]; lra. Qed.
Lemma sqrt_rel x y p : 0 < x -> 0 <= p <= 1 / 100 -> Rabs (y - x) <= p * x -> Rabs (sqrt y - sqrt x) <= 6 / 10 * p * sqrt x.
Proof.
  intros Hx Hp H. apply Rabs_le_inv in H. assert (px : p * x <= 1 / 100 * x) by (apply Rmult_le_compat_r; lra).
  assert (Sx := sqrt_lt_R0 x Hx). assert (Ex := sqrt_sqrt x ltac:(lra)). assert (Sy := sqrt_lt_R0 y ltac:(lra)). assert (Ey := sqrt_sqrt y ltac:(lra)).
  set (a := sqrt x) in *. set (b := sqrt y) in *. assert (pa : 0 <= p * a) by (apply Rmult_le_pos; lra). assert (paa : p * a * a = p * x) by (rewrite <- Ex; ring).
  assert (bb : 98 / 100 * a <= b) by (apply sq_le; [lra|]; lra).
  assert (Q : (b - a) * (b + a) = y - x) by (rewrite <- Ex, <- Ey; ring).
  apply Rabs_le. split.
  - apply Rmult_le_reg_r with (b + a); [lra|]. rewrite Q. assert (6 / 10 * p * a * (198 / 100 * a) <= 6 / 10 * p * a * (b + a)) by (apply Rmult_le_compat_l; lra). lra.
  - apply Rmult_le_reg_r with (b + a); [lra|]. rewrite Q. assert (6 / 10 * p * a * (198 / 100 * a) <= 6 / 10 * p * a * (b + a)) by (apply Rmult_le_compat_l; lra). lra.
Qed.
Lemma leaf_apx lg (x : C) y : falcon_lg lg -> cfin x -> 8977 <= y <= 16823 -> Rabs (val (fst x) - y) <= PP * y ->
  let v := nleaf F (sigma_value F lg) x in cfin v /\ val (snd v) = 0 /\ Rabs (val (fst v) - sigma_value RF lg / sqrt y) <= 14 / 10000 /\ 127 / 100 <= val (fst v) <= 179 / 100.
Proof.
  intros Hlg [Fx _] Hy Ex v. destruct (sigma_apx lg Hlg) as [Fs Es]. assert (Rs := sigma_rng lg Hlg). assert (RLo : 1277 / 1000 <= sigma_value RF lg / sqrt y <= 1778 / 1000).
  { destruct Hlg as [-> | ->]; [rewrite sigma_9|rewrite sigma_10]; split; [apply div_sqrt_ge|apply div_sqrt_le|apply div_sqrt_ge|apply div_sqrt_le]; lra. }
  set (sg := sigma_value RF lg) in *. change (D RF) with R in sg. unfold PP in Ex. assert (T := tiny_pos). assert (T1 := tiny_30). assert (U := ulp_val).
  assert (SR := sqrt_rel y (val (fst x)) (11 / 10000) ltac:(lra) ltac:(lra) Ex). assert (Ey := sqrt_sqrt y ltac:(lra)). assert (Sy := sqrt_lt_R0 y ltac:(lra)). set (r := sqrt y) in *.
  assert (Br : 94 <= r <= 130). { split; (apply sq_le; lra). }
  destruct (acc_sqrt _ _ _ A (fst x) Fx) as [F1 E1]; [apply Rabs_le_inv in Ex; lra|]. set (s' := fsqrt F (fst x)) in *. set (r' := sqrt (val (fst x))) in *.
  assert (Es' : Rabs (val s' - r) <= 661 / 1000000 * r).
  { replace (val s' - r) with ((val s' - r') + (r' - r)) by ring. eapply Rle_trans; [apply Rabs_triang|]. apply Rabs_le_inv in SR. rewrite U in E1. assert (Rabs (r' - r) <= 66 / 100000 * r) by (apply Rabs_le; lra). lra. }
  assert (Bs : 93 <= val s' <= 131) by (apply Rabs_le_inv in Es'; lra).
  apply Rabs_le_inv in Es.
  destruct (acc_div _ _ _ A (sigma_value F lg) s' Fs F1) as [F2 E2]; [apply big_h; apply Rabs_le; lra|rewrite Rabs_pos_eq; lra|].
  destruct (acc_int _ _ _ A 0%Z ltac:(cbv; discriminate)) as [F3 E3].
  split; [split; [exact F2|exact F3]|]. split; [exact E3|]. unfold v, nleaf, cof. cbn [fst snd]. fold s'. set (q1 := val (fdiv F (sigma_value F lg) s')) in *. set (sg' := val (sigma_value F lg)) in *.
  assert (Q0 : sg / r <= 1778 / 1000) by (apply RLo). assert (Q0' : 1277 / 1000 <= sg / r) by apply RLo.
  assert (D1 : Rabs (sg' / val s' - sg / r) <= 13 / 10000).
  { replace (sg' / val s' - sg / r) with ((sg' - sg) / val s' + sg / r * ((r - val s') / val s')) by (field; split; lra). eapply Rle_trans; [apply Rabs_triang|]. rewrite Rabs_mult, (Rabs_pos_eq (sg / r)) by lra.
    assert (A1 : Rabs ((sg' - sg) / val s') <= 1 / 100000). { unfold Rdiv. rewrite Rabs_mult, (Rabs_pos_eq (/ val s')) by (left; apply Rinv_0_lt_compat; lra). apply Rle_trans with (1 / 10000000000000 * 1); [|lra]. apply Rmult_le_compat; [apply Rabs_pos|left; apply Rinv_0_lt_compat; lra|apply Rabs_le; lra|]. apply Rle_trans with (/ 1); [apply Rinv_le_contravar; lra|lra]. }
    assert (A2 : Rabs ((r - val s') / val s') <= 7 / 10000). { unfold Rdiv. rewrite Rabs_mult, (Rabs_pos_eq (/ val s')) by (left; apply Rinv_0_lt_compat; lra). rewrite Rabs_minus_sym. apply Rmult_le_reg_r with (val s'); [lra|]. rewrite Rmult_assoc, Rinv_l, Rmult_1_r by lra. apply Rabs_le_inv in Es'. apply Rabs_le. lra. }
    assert (sg / r * Rabs ((r - val s') / val s') <= 1778 / 1000 * (7 / 10000)) by (apply Rmult_le_compat; [lra|apply Rabs_pos|lra|exact A2]). lra. }
  assert (D2 : Rabs (q1 - sg' / val s') <= 1 / 100000). { eapply Rle_trans; [exact E2|]. assert (Rabs (sg' / val s') <= 2) by (apply Rabs_le_inv in D1; apply Rabs_le; lra). rewrite U. lra. }
  assert (D3 : Rabs (q1 - sg / r) <= 14 / 10000). { replace (q1 - sg / r) with ((q1 - sg' / val s') + (sg' / val s' - sg / r)) by ring. eapply Rle_trans; [apply Rabs_triang|]. lra. }
  split; [exact D3|]. apply Rabs_le_inv in D3. lra.
Qed.

(** ** cells *)
Notation lv := (P_tree.leaves RF).
Lemma sub_cells lg W : falcon_lg lg -> forall h dv t T TR off, (S h <= 10)%nat -> (2 ^ h <= W)%nat -> inr (2 ^ S h) dv -> near PP h dv t ->
  Forall (fun x : Cx => 8977 <= fst x <= 16823) (lv (sub h (rv (2 ^ S h) dv))) ->
  stored F W h T off (ntree F (sigma_value F lg) t) -> stored RF W h TR off (ntree RF (sigma_value RF lg) (sub h (rv (2 ^ S h) dv))) ->
  forall k, region W h off k -> cfin (nth k T d) /\ Cm (Csub (cv (nth k T d)) (nth k TR Czero)) <= 25 / 10000 /\
    (leaf_region W h off k -> val (snd (nth k T d)) = 0 /\ 127 / 100 <= val (fst (nth k T d)) <= 179 / 100).
Proof.
  intros Hlg. induction h as [|h IH]; intros dv t T TR off Hh HW Hd Hn Hl St SR k Hk.
  - destruct t as [x|]; [|contradiction]. cbn [near] in Hn. destruct Hn as [Fx Ex]. cbn [ntree stored sub P_tree.leaves] in *. rewrite rv_nth in SR, Hl by (simpl; lia).
    destruct Hk as [l [H1 H2]]. assert (l = 0)%nat by lia. subst l. simpl in H2. assert (k = off) by lia. subst k.
    apply Forall_inv in Hl. unfold Cof in Hl. cbn [fst] in Hl. destruct (leaf_apx lg x (dv 0%nat) Hlg Fx Hl Ex) as (G1 & G2 & G3 & G4). rewrite St. split; [exact G1|].
    change (nth off TR Czero) with (nth off TR (c0 RF)). rewrite SR. rewrite (cv_re F val _ G2). split; [|intros _; split; [exact G2|exact G4]]. set (v := nleaf F (sigma_value F lg) x) in *.
    replace (Csub (val (fst v), 0) (nleaf RF (sigma_value RF lg) (Cof (dv 0%nat)))) with ((val (fst v) - sigma_value RF lg / sqrt (dv 0%nat), 0) : Cx).
    + rewrite Cm_re. lra.
    + apply Cx_eq; unfold nleaf, cof, Cof; cbn; [reflexivity|]. lra.
  - destruct t as [|l a b]; [contradiction|]. cbn [near] in Hn. destruct Hn as [[Ll Fl] [El [Na Nb]]]. assert (E2 : (2 ^ S (S h) = 2 * 2 ^ S h)%nat) by reflexivity. rewrite E2 in Hd.
    rewrite sub_node' in SR, Hl by (assumption || (intros i Hi; rewrite E2 in Hi; specialize (Hd i Hi); lra)).
    cbn [P_tree.leaves ntree stored] in *. apply Forall_app in Hl. destruct Hl as [Hla Hlb]. destruct St as [_ [Sl [Sa Sb]]]. destruct SR as [_ [Sl' [Sa' Sb']]].
    apply region_split in Hk; [|exact HW]. destruct Hk as [Hk|[Hk|Hk]].
    + assert (Hi : (k - off < 2 ^ S h)%nat) by lia. specialize (Sl _ Hi). specialize (Sl' _ Hi). replace (off + (k - off))%nat with k in Sl, Sl' by lia. rewrite Sl. split; [apply Fl, Hi|].
      change (nth k TR Czero) with (nth k TR (c0 RF)). rewrite Sl'. specialize (El _ Hi). split; [|intros LR; unfold leaf_region in LR; nia].
      match goal with |- Cm (Csub _ ?r) <= _ => replace r with (lex h dv (k - off)) end.
      * eapply Rle_trans; [exact El|]. unfold PP. assert (B1 := inr_am _ _ Hd _ Hi). assert (B2 := inr_hm _ _ Hd _ Hi).
        assert (hm2 dv (k - off) / am2 dv (k - off) <= 1). { apply Rmult_le_reg_r with (am2 dv (k - off)); [lra|]. unfold Rdiv. rewrite Rmult_assoc, Rinv_l by lra. rewrite Rmult_1_r, Rmult_1_l. apply (hm2_le (2 ^ S h)); [lia| |exact Hi]. intros i Hi'. specialize (Hd i Hi'). lra. } lra.
      * symmetry. apply (P_norm.sub_l10 h dv (k - off)); [lia| |exact Hi]. intros i Hi'. specialize (Hd i Hi'). lra.
    + destruct (IH (am2 dv) a T TR (off + W)%nat) with (k := k) as (C1 & C2 & C3); try assumption; [lia|change (2 ^ S h)%nat with (2 * 2 ^ h)%nat in HW; lia|apply inr_am, Hd|].
      split; [exact C1|]. split; [exact C2|]. intros LR. apply C3. destruct Hk as [l0 [H1 H2]]. unfold leaf_region in *. nia.
    + destruct (IH (hm2 dv) b T TR (off + W + 2 ^ h)%nat) with (k := k) as (C1 & C2 & C3); try assumption; [lia|change (2 ^ S h)%nat with (2 * 2 ^ h)%nat in HW; lia|apply inr_hm, Hd|].
      split; [exact C1|]. split; [exact C2|]. intros LR. apply C3. destruct Hk as [l0 [H1 H2]]. unfold leaf_region in *. change (2 ^ S h)%nat with (2 * 2 ^ h)%nat in *. assert (l0 = h \/ S l0 <= h)%nat as [->|Hl0] by lia; nia.
Qed.

(** ** the whole tree *)
Section Tree.
Variable h : nat.
Notation lg := (S h).
Hypothesis Hlg : falcon_lg lg.
Variables f g F_ G_ : list Z.
Notation N := (2 ^ lg)%nat.
Hypotheses (Lf : length f = N) (Lg : length g = N) (LF : length F_ = N) (LG : length G_ = N).
Hypothesis HN : ntru N f g F_ G_.
Hypothesis HGS : gs_norm lg f g <= 168224122 / 10000.
Hypotheses (SF : (sqnorm F_ <= 16777216)%Z) (SG : (sqnorm G_ <= 16777216)%Z).
Notation pe a := (emb (ofl Z 0%Z N a)).
Notation ddv := (dd lg f g).
Notation ddov := (ddo lg f g).
Notation wvv := (P_norm.wv h f g F_ G_).
Lemma lg10 : (lg <= 10)%nat. Proof. destruct Hlg as [E|E]; lia. Qed.
Lemma gs3 : gs_norm lg f g <= 16823. Proof. lra. Qed.
Lemma dd_up i : (i < N)%nat -> ddv i <= 17226752.
Proof.
  intros Hi. assert (U := P_defx.dd_upper h f g F_ G_ Lf Lg HN gs3 i Hi). assert (H10 := lg10).
  assert (INR N <= 1024). { replace 1024 with (INR (2 ^ 10)); [apply le_INR, Nat.pow_le_mono_r; lia|]. rewrite INR_IZR_INZ. reflexivity. } lra.
Qed.
Lemma dd_in : inr N ddv.
Proof. intros i Hi. split; [apply (P_defx.dd_lower h lg10 f g F_ G_ Lf Lg LF LG HN gs3 i Hi)|]. assert (U := dd_up i Hi). lra. Qed.
Lemma ddo_eq i : ddov i = 151019521 / ddv i. Proof. reflexivity. Qed.
Lemma ddo_in : inr N ddov.
Proof.
  intros i Hi. split; [apply (P_defx.ddo_lower h lg10 f g F_ G_ Lf Lg LF LG HN gs3 i Hi)|]. rewrite ddo_eq. assert (B := dd_in i Hi). apply Rmult_le_reg_r with (ddv i); [lra|]. unfold Rdiv. rewrite Rmult_assoc, Rinv_l by lra. lra.
Qed.
Lemma sq_eq x : P_fft.sq x = mod2 x. Proof. unfold P_fft.sq, mod2. ring. Qed.
Lemma sqrt_btw a b x : 0 <= a -> 0 <= b -> a * a <= x <= b * b -> a <= sqrt x <= b.
Proof. intros Ha Hb [H1 H2]. split; [rewrite <- (sqrt_square a Ha)|rewrite <- (sqrt_square b Hb)]; apply sqrt_le_1_alt; assumption. Qed.
Lemma kf_sq : (sqnorm f <= 131 * 131 /\ sqnorm g <= 131 * 131)%Z.
Proof.
  assert (M : IZR (sqnorm f + sqnorm g) <= gs_norm lg f g) by apply Rmax_l. assert (IZR (sqnorm f + sqnorm g) <= 17161) by lra. apply le_IZR in H.
  assert (Pf := P_signx.sqnorm_pos f). assert (Pg := P_signx.sqnorm_pos g). lia.
Qed.
Lemma dd2_rng i : (i < N)%nat -> 87 / 10 <= dd2 lg F_ G_ i <= 34359738368.
Proof.
  intros Hi. split.
  - assert (E := gram10_sq lg f g F_ G_ HN i Hi). match type of E with P_fft.sq ?x = _ => assert (Q := sq_nonneg x); rewrite E in Q end. change (IZR (q * q)) with 151019521 in Q.
    assert (B := dd_in i Hi). assert (B2 := ddo_in i Hi). rewrite ddo_eq in B2. apply Rle_trans with (151019521 / ddv i); [apply B2|]. apply Rmult_le_reg_r with (ddv i); [lra|]. unfold Rdiv. rewrite Rmult_assoc, Rinv_l by lra. lra.
  - unfold dd2. rewrite !sq_eq. assert (V : forall a, length a = N -> (sqnorm a <= 16777216)%Z -> mod2 (ev (pe a) i) <= 131072 * 131072).
    { intros a La Ha. assert (Q := ev_sup lg lg10 a (IZR 4096) i (P_fsv.nrm_list lg a 4096 La ltac:(discriminate) Ha) Hi). rewrite <- Cm_sq. assert (P := Cm_pos (ev (pe a) i)). apply Rmult_le_compat; lra. }
    eapply Rle_trans; [apply Rplus_le_compat; [exact (V F_ LF SF)|exact (V G_ LG SG)]|lra].
Qed.

Lemma nth_cjn (v : list C) i n : length v = n -> (i < n)%nat -> nth i (map (cconj F) v) d = cconj F (nth i v d).
Proof. intros L Hi. rewrite (nth_indep _ d (cconj F d)) by (rewrite map_length; lia). apply map_nth. Qed.
Lemma gram_nth (a b c e : list C) n i : length a = n -> length b = n -> length c = n -> length e = n -> (i < n)%nat ->
  nth i (vgram F n a b c e) d = cadd F (fcmul F (nth i a d) (cconj F (nth i c d))) (fcmul F (nth i b d) (cconj F (nth i e d))).
Proof. intros La Lb Lc Le Hi. unfold vgram, vop. rewrite (nth_tab n) by exact Hi. rewrite !(nth_tab n) by exact Hi. rewrite !(nth_cjn _ i n) by assumption. reflexivity. Qed.
Lemma l10_nth (a b : list C) n i : (i < n)%nat -> nth i (vl10 F n a b) d = fcdiv F (nth i b d) (nth i a d).
Proof. intros Hi. unfold vl10, vop. rewrite (nth_tab n) by exact Hi. reflexivity. Qed.
Lemma d11_nth (a b c : list C) n i : (i < n)%nat -> nth i (vd11 F n a b c) d =
  let l := fcdiv F (nth i b d) (nth i a d) in csub F (nth i c d) (fcmul F (fcmul F l (cconj F l)) (nth i a d)).
Proof.
  intros Hi. unfold vd11. unfold vop at 1. rewrite (nth_tab n) by exact Hi. unfold vop at 1. rewrite (nth_tab n) by exact Hi. unfold vop at 1. rewrite (nth_tab n) by exact Hi.
  rewrite (nth_cjn _ i n) by (apply (vop_length F) || exact Hi). rewrite !l10_nth by exact Hi. reflexivity.
Qed.
Lemma wv_sq i : (i < N)%nat -> mod2 (wvv i) = ddv i * dd2 lg F_ G_ i - 151019521.
Proof. intros Hi. assert (E := gram10_sq lg f g F_ G_ HN i Hi). rewrite sq_eq in E. rewrite <- (P_norm.wv_ok h f g F_ G_ i Hi). exact E. Qed.

(** the root of the tree: entries close to w / dd, and the two vectors the subtrees are built from *)
Lemma root_vec (w0 w1 w2 w3 : list C) : apx N w0 (ev (pe g)) (1 / 10000000000) -> apx N w1 (ev (cpopp (pe f))) (1 / 10000000000) ->
  apx N w2 (ev (pe G_)) (3 / 1000000000) -> apx N w3 (ev (cpopp (pe F_))) (3 / 1000000000) ->
  let g00 := vgram F N w0 w1 w0 w1 in let g10 := vgram F N w2 w3 w0 w1 in let g11 := vgram F N w2 w3 w2 w3 in
  vfin N (vl10 F N g00 g10) /\ (forall i, (i < N)%nat -> Cm (Csub (Cmul (X (vl10 F N g00 g10) i) (Cof (ddv i))) (wvv i)) <= 1 / 10000) /\
  rvec F fin val N g00 ddv (1 / 1000) /\ rvec F fin val N (vd11 F N g00 g10 g11) ddov (1 / 1000).
Proof.
  intros A0 A1 A2 A3 g00 g10 g11. assert (L0 : length w0 = N) by apply A0. assert (L1 : length w1 = N) by apply A1. assert (L2 : length w2 = N) by apply A2. assert (L3 : length w3 = N) by apply A3.
  assert (Pt : forall i, (i < N)%nat ->
    let x00 := nth i g00 d in let l := nth i (vl10 F N g00 g10) d in let r11 := nth i (vd11 F N g00 g10 g11) d in
    cfin x00 /\ val (snd x00) = 0 /\ Rabs (val (fst x00) - ddv i) <= 1 / 1000 * ddv i /\
    cfin l /\ Cm (Csub (Cmul (cv l) (Cof (ddv i))) (wvv i)) <= 1 / 10000 /\
    cfin r11 /\ val (snd r11) = 0 /\ Rabs (val (fst r11) - ddov i) <= 1 / 1000 * ddov i).
  { intros i Hi x00 l r11. subst x00 l r11. rewrite d11_nth, l10_nth by exact Hi. unfold g00, g10, g11. rewrite !(gram_nth _ _ _ _ N i) by assumption.
    assert (B := dd_in i Hi). assert (B2 := dd2_rng i Hi). assert (S1 := sqrt_sqrt (ddv i) ltac:(lra)). assert (S2 := sqrt_sqrt (dd2 lg F_ G_ i) ltac:(lra)).
    assert (U := dd_up i Hi). assert (R1 := sqrt_btw (29 / 10) 4160 (ddv i) ltac:(lra) ltac:(lra) ltac:(lra)). assert (R2 := sqrt_btw (29 / 10) 185364 (dd2 lg F_ G_ i) ltac:(lra) ltac:(lra) ltac:(lra)).
    destruct (root_point F fin val A RE (nth i w0 d) (nth i w1 d) (nth i w2 d) (nth i w3 d) (ev (pe g) i) (ev (cpopp (pe f)) i) (ev (pe G_) i) (ev (cpopp (pe F_)) i) (sqrt (ddv i)) (sqrt (dd2 lg F_ G_ i))) as (P1 & P2 & P3 & P4 & P5 & P6 & P7 & P8).
    - apply A0, Hi. - apply A1, Hi. - apply A2, Hi. - apply A3, Hi.
    - apply (apx_point F fin val N w0 (ev (pe g)) _ i A0 Hi). - apply (apx_point F fin val N w1 (ev (cpopp (pe f))) _ i A1 Hi). - apply (apx_point F fin val N w2 (ev (pe G_)) _ i A2 Hi). - apply (apx_point F fin val N w3 (ev (cpopp (pe F_))) _ i A3 Hi).
    - exact R1. - exact R2.
    - rewrite S1, ev_opp. unfold dd, P_fft.sq, mod2. cx. ring.
    - rewrite S2, ev_opp. unfold dd2, P_fft.sq, mod2. cx. ring.
    - rewrite S1, S2. rewrite <- wv_sq by exact Hi. f_equal. rewrite !ev_opp. unfold P_norm.wv. apply Cx_eq; cx; ring.
    - rewrite S1 in P3, P5, P8. rewrite ddo_eq. split; [exact P1|]. split; [exact P2|]. split; [exact P3|]. split; [exact P4|]. split; [|split; [exact P6|split; [exact P7|exact P8]]].
      replace (wvv i) with (Cadd (Cmul (ev (pe G_) i) (Cconj (ev (pe g) i))) (Cmul (ev (cpopp (pe F_)) i) (Cconj (ev (cpopp (pe f)) i)))); [exact P5|]. rewrite !ev_opp. unfold P_norm.wv. apply Cx_eq; cx; ring. }
  split; [split; [apply (vop_length F)|intros i Hi; apply Pt, Hi]|]. split; [intros i Hi; apply Pt, Hi|].
  split; (split; [split; [apply (vop_length F)|intros i Hi; apply Pt, Hi]|intros i Hi; split; apply Pt, Hi]).
Qed.

(** [compute_falcon_tree] runs and its output stores a tree near the exact one *)
Lemma tree_float (w0 w1 w2 w3 T : list C) : apx N w0 (ev (pe g)) (1 / 10000000000) -> apx N w1 (ev (cpopp (pe f))) (1 / 10000000000) ->
  apx N w2 (ev (pe G_)) (3 / 1000000000) -> apx N w3 (ev (cpopp (pe F_))) (3 / 1000000000) -> ((lg + 1) * N <= length T)%nat ->
  exists T' l a b, compute_falcon_tree F ztab lg (w0 ++ w1 ++ w2 ++ w3) T = Ok T' /\ length T' = length T /\
    stored F N lg T' 0 (ntree F (sigma_value F lg) (Node F l a b)) /\ vfin N l /\
    (forall i, (i < N)%nat -> Cm (Csub (Cmul (X l i) (Cof (ddv i))) (wvv i)) <= 1 / 10000) /\ near PP h ddv a /\ near PP h ddov b.
Proof.
  intros A0 A1 A2 A3 LT. assert (L0 : length w0 = N) by apply A0. assert (L1 : length w1 = N) by apply A1. assert (L2 : length w2 = N) by apply A2. assert (L3 : length w3 = N) by apply A3.
  destruct (root_vec w0 w1 w2 w3 A0 A1 A2 A3) as (Fl & El & V0 & V1). unfold compute_falcon_tree.
  rewrite gram_raw by (assumption || (unfold fresh; rewrite repeat_length; lia)). cbn [bind].
  set (g00 := vgram F N w0 w1 w0 w1) in *. set (g10 := vgram F N w2 w3 w0 w1) in *. set (g11 := vgram F N w2 w3 w2 w3) in *. set (g01 := vgram F N w0 w1 w2 w3).
  set (Gm := g00 ++ g01 ++ g10 ++ g11).
  destruct (slices4 F g00 g01 g10 g11 N) as [S0 [S2 [S3 _]]]; try apply (vop_length F).
  assert (Hz : length ztab = 1024%nat) by apply HZ.
  destruct (ffldl_ok F ztab N lg 0 Gm T 0) as [T1 [E1 [LT1 [_ St]]]].
  - lia. - reflexivity. - rewrite Hz. change 1024%nat with (2 ^ 10)%nat. apply Nat.pow_le_mono_r; [lia|apply lg10].
  - unfold Gm. rewrite !app_length. unfold g00, g01, g10, g11. rewrite !vgram_length. lia.
  - lia.
  - rewrite E1. cbn [bind]. unfold Gm in St. rewrite S0, S2, S3 in St. rewrite ltree_gsub in St.
    destruct (normalize_ok F N (sigma_value F lg) lg 0 T1 0 _ ltac:(lia) eq_refl ltac:(rewrite LT1; lia) St) as [T2 [E2 [LT2 [_ St2]]]].
    rewrite E2. eexists T2, _, _, _. split; [reflexivity|]. split; [congruence|]. split; [exact St2|]. split; [exact Fl|]. split; [exact El|].
    assert (Hh : INR h * (3 / 100000000) <= 1 / 10000). { assert (INR h <= 10); [|lra]. replace 10 with (INR 10) by (rewrite INR_IZR_INZ; reflexivity). apply le_INR. assert (H10 := lg10). lia. }
    split; apply (sub_near F fin val A RE ztab HZ PP) with (rho := 1 / 1000); try (apply lg10 || apply dd_in || apply ddo_in || assumption); unfold PP; lra.
Qed.

Lemma leaves_rng : Forall (fun x : Cx => 8977 <= fst x <= 16823) (lv (root_tree lg f g F_ G_)).
Proof.
  eapply Forall_impl; [|apply (root_leaves lg lg10 f g F_ G_ Lf Lg LF LG HN); lia]. intros x [R0 [R1 [R2 R3]]]. split; [|lra].
  assert (B := inv_bound _ _ _ qq_pos R1 R2 R3). eapply Rle_trans; [|exact B]. change (IZR (q * q)) with 151019521. assert (Gp : 0 < gs_norm lg f g) by lra.
  apply Rmult_le_reg_r with (gs_norm lg f g); [exact Gp|]. unfold Rdiv. rewrite Rmult_assoc, Rinv_l by lra. lra.
Qed.
Lemma tree_cells (T : list C) (TX : list Cx) l a b : stored F N lg T 0 (ntree F (sigma_value F lg) (Node F l a b)) -> vfin N l ->
  (forall i, (i < N)%nat -> Cm (Csub (Cmul (X l i) (Cof (ddv i))) (wvv i)) <= 1 / 10000) -> near PP h ddv a -> near PP h ddov b ->
  stored RF N lg TX 0 (ntree RF (sigma_value RF lg) (root_tree lg f g F_ G_)) ->
  forall k, (k < (lg + 1) * N)%nat -> cfin (nth k T d) /\ Cm (Csub (cv (nth k T d)) (nth k TX Czero)) <= 25 / 10000 /\
    ((lg * N <= k)%nat -> val (snd (nth k T d)) = 0 /\ 127 / 100 <= val (fst (nth k T d)) <= 179 / 100).
Proof.
  intros St [Ll Fl] El Na Nb SR k Hk. assert (Lv := leaves_rng). rewrite (P_norm.root_tree_node h f g F_ G_ HN) in SR, Lv. cbn [ntree stored P_tree.leaves] in *.
  apply Forall_app in Lv. destruct Lv as [La Lb]. destruct St as [_ [Sl [Sa Sb]]]. destruct SR as [_ [Sl' [Sa' Sb']]].
  assert (E2 : N = (2 * 2 ^ h)%nat) by reflexivity. assert (P := pow2_pos h). assert (LR : (lg * N <= k)%nat -> leaf_region N lg 0 k) by (unfold leaf_region; lia).
  assert (Hr := region_all lg k Hk). apply region_split in Hr; [|lia]. destruct Hr as [Hr|[Hr|Hr]].
  - assert (Hi : (k < N)%nat) by lia. specialize (Sl _ Hi). specialize (Sl' _ Hi). rewrite Nat.add_0_l in Sl, Sl'. rewrite Sl. split; [apply Fl, Hi|]. split; [|intros; nia].
    specialize (El _ Hi). assert (B := dd_in k Hi). assert (EX : nth k TX Czero = (fst (wvv k) / ddv k, snd (wvv k) / ddv k)) by (etransitivity; [exact Sl'|exact (P_norm.root_l10 h f g F_ G_ HN k Hi)]). rewrite EX.
    apply Rmult_le_reg_r with (ddv k); [lra|]. apply Rle_trans with (1 / 10000); [|lra]. eapply Rle_trans; [|exact El]. match goal with |- Cm ?u * _ <= _ => replace (Cm u * ddv k) with (Cm (Cmul u (Cof (ddv k)))) by (rewrite Cm_mul; f_equal; unfold Cof; rewrite Cm_re, Rabs_pos_eq; lra) end. right. f_equal. unfold P_err.X.
    apply Cx_eq; unfold Cof; cx; field; lra.
  - destruct (sub_cells lg N Hlg h ddv a T TX (0 + N)%nat) with (k := k) as (C1 & C2 & C3); try assumption; [apply lg10|lia|apply dd_in|].
    split; [exact C1|]. split; [exact C2|]. intros Hl. apply C3. destruct Hr as [l0 [H1 H2]]. unfold leaf_region in *. nia.
  - destruct (sub_cells lg N Hlg h ddov b T TX (0 + N + 2 ^ h)%nat) with (k := k) as (C1 & C2 & C3); try assumption; [apply lg10|lia|apply ddo_in|].
    split; [exact C1|]. split; [exact C2|]. intros Hl. apply C3. destruct Hr as [l0 [H1 H2]]. unfold leaf_region in *. assert (l0 = h \/ S l0 <= h)%nat as [->|Hl0] by lia; nia.
Qed.
End Tree.
End Key.
