(** P_jkey.v -- the joint distribution of the samples, in terms of the functions signing calls. *)
From Verif Require Import Base Ring Poly Spec SpecR SpecS SpecG SpecJ M_ff M_xform P_xform M_codec P_codec M_sig M_verify M_float M_exact P_exact M_samp M_fft M_ntru P_ntru M_tree P_tree P_brv P_cplx P_fft P_treex P_gs P_leaf P_sign P_signb P_signx P_signv P_norm P_normx P_defx.
From Verif Require Import P_prob P_dist P_joint P_gsum P_prog P_jprob P_pnorm P_pdef P_jfin P_jtot.
From Coq Require Import Lra.
Open Scope R_scope.

Lemma ft_emb_inj lg (Hl : (lg <= 10)%nat) (a b : zpv (2 ^ lg)) : ft (emb a) = ft (emb b) -> a = b.
Proof. intros E. apply emb_inj, (ft_inj lg _ _ Hl), E. Qed.
Lemma prob_ext n P Q : (forall w, P w = Q w) -> prob n P = prob n Q.
Proof. intros H. rewrite !prob_avg. apply avg_ext. intros w _ _. rewrite H. reflexivity. Qed.

Lemma quot_ge (a s y g : R) : 0 <= a -> 0 < s -> 0 < y -> y <= g -> a * a * g <= s * s -> a <= s / sqrt y.
Proof.
  intros Ha Hs Hy Hg H. assert (Q := sqrt_lt_R0 _ Hy). apply Rmult_le_reg_r with (sqrt y); [exact Q|]. replace (s / sqrt y * sqrt y) with s by (field; lra).
  apply Rsqr_incr_0; [|apply Rmult_le_pos; lra|lra]. unfold Rsqr. replace (a * sqrt y * (a * sqrt y)) with (a * a * (sqrt y * sqrt y)) by ring.
  rewrite sqrt_sqrt by lra. eapply Rle_trans; [|exact H]. apply Rmult_le_compat_l; [apply Rmult_le_pos; lra|exact Hg].
Qed.

Section Key.
Variable lg : nat.
Hypothesis Hlg : falcon_lg lg.
Notation N := (2 ^ lg)%nat.
Variables f g F_ G_ : list Z.
Hypotheses (Lf : length f = N) (Lg : length g = N) (LF : length F_ = N) (LG : length G_ = N).
Hypothesis HN : ntru N f g F_ G_.
Hypothesis HGS : gs_norm lg f g <= 117 / 100 * (117 / 100) * 12289.
Hypothesis Hsm : lg = 10%nat \/ sigma_min RF lg * sigma_min RF lg * gs_norm lg f g <= sigma_value RF lg * sigma_value RF lg.

Lemma smin_lo : 127 / 100 <= sigma_min RF lg.
Proof. destruct Hlg as [-> | ->]; unfold sigma_min, flit; cbn; lra. Qed.
Lemma root_okl : ok_leaves (sigma_min RF lg) (leaves (ntree RF (sigma_value RF lg) (root_tree lg f g F_ G_))).
Proof.
  assert (lg1 : (1 <= lg <= 10)%nat) by (destruct Hlg as [->| ->]; lia).
  unfold ok_leaves. rewrite ntree_leaves. rewrite Forall_forall. intros x Hx. apply in_map_iff in Hx. destruct Hx as [y [<- Hy]].
  assert (RL := root_leaves lg (proj2 lg1) f g F_ G_ Lf Lg LF LG HN (proj1 lg1)). rewrite Forall_forall in RL. destruct (RL y Hy) as [R0 [R1 [R2 R3]]].
  assert (R := leaf_range lg (gs_norm lg f g) (fst y) Hlg R1 (conj (inv_bound _ _ _ P_treex.qq_pos R1 R2 R3) R3) HGS).
  unfold nleaf. cbn [fst cof]. change (sigma_min RF lg <= sigma_value RF lg / sqrt (fst y) <= 18205 / 10000). split.
  - destruct Hsm as [E|H].
    + destruct R as [R _]. revert R. rewrite E. unfold leaf_lo, sigma_min, flit. cbn. lra.
    + assert (Sl := smin_lo). assert (Sp := sigma_nz lg). apply (quot_ge _ _ (fst y) (gs_norm lg f g)); [lra|exact Sp|exact R1|exact R3|exact H].
  - revert R. unfold leaf_lo, leaf_hi. destruct Hlg as [->| ->]; cbn [Nat.eqb]; lra.
Qed.

Hypotheses (BF : Forall (fun x => Z.abs x <= 27000)%Z F_) (BG : Forall (fun x => Z.abs x <= 27000)%Z G_).
Notation norm2 c a := (IZR (sqnorm (psub N (psub N c (negacyclic N (fst a) g)) (negacyclic N (snd a) G_)) + sqnorm (padd N (negacyclic N (fst a) f) (negacyclic N (snd a) F_)))).

Lemma joint_run c B T0 T t0 t1 : length c = N -> Forall canon c -> ((lg + 1) * N <= length T0)%nat ->
  compute_matrix_B RF exact_table lg f g F_ G_ = Ok B -> compute_falcon_tree RF exact_table lg B T0 = Ok T ->
  sign_target RF exact_table lg B c = Ok (t0, t1) ->
  exists I : list Z * list Z -> R,
    (forall a, length (fst a) = N -> length (snd a) = N -> exists cs Gs, length cs = (2 * N)%nat /\
      map stddev cs = leaf_twice lg T /\ Forall (fun k => sigma_min RF lg <= stddev k <= 18205 / 10000) cs /\
      Forall2 (fun k G => gauss_sum (stddev k) (centre k) G) cs Gs /\
      I a = exp (- (norm2 c a / (2 * (sigma_value RF lg * sigma_value RF lg)))) / Rprod Gs) /\
    total (fun a => length (fst a) = N /\ length (snd a) = N) I 1 /\
    (forall k n L, (36 * k * N <= n)%nat -> NoDup L -> Forall (fun a => length (fst a) = N /\ length (snd a) = N) L ->
      lsum (fun a => Rabs (prob n (fun w => samples lg (ff_sampling RF exact_table k lg 0 t0 t1 T 0 (sigma_min RF lg) (stream w) 0) a) - I a)) L
        <= INR (2 * N) * (/ 2 ^ 35 + (11 / 12) ^ k)) /\
    (forall k n, (36 * k * N <= n)%nat ->
      1 - INR (2 * N) * (11 / 12) ^ k <= prob n (fun w => finishes (ff_sampling RF exact_table k lg 0 t0 t1 T 0 (sigma_min RF lg) (stream w) 0)) <= 1).
Proof.
  intros Lc Hc LT HB HT Ht. assert (lg1 : (1 <= lg <= 10)%nat) by (destruct Hlg as [->| ->]; lia). assert (lg10 : (lg <= 10)%nat) by lia.
  rewrite (matrix_B_ok lg lg10 f g F_ G_ Lf Lg LF LG) in HB. apply (f_equal (fun r => match r with Ok v => v | _ => [] end)) in HB. cbv beta iota in HB. subst B.
  destruct (tree_ok lg f g F_ G_ T0 lg1 Lf Lg LF LG HN LT) as [T' [E [LT' St]]].
  pose proof (eq_trans (eq_sym HT) E) as ET. apply (f_equal (fun r => match r with Ok v => v | _ => [] end)) in ET. cbv beta iota in ET. subst T'. clear E.
  rewrite target_ok in Ht by assumption.
  assert (X0 := f_equal (fun r => match r with Ok v => fst v | _ => [] end) Ht). assert (X1 := f_equal (fun r => match r with Ok v => snd v | _ => [] end) Ht).
  cbn [fst snd] in X0, X1. subst t0 t1. clear Ht HT.
  assert (EL := leaves_cells lg T _ St). assert (ETW := twice_cells lg T). rewrite <- EL in ETW. clear EL.
  assert (GL := root_okl). assert (Sm := smin_lo). assert (Sg := sigma_small lg Hlg). assert (LTT : ((lg + 1) * N <= @length Cx T)%nat) by (eapply Nat.le_trans; [exact LT|apply Nat.eq_le_incl; symmetry; exact LT']). clear LT LT'.
  assert (HGS' : gs_norm lg f g <= 16823) by lra.
  set (sg := sigma_value RF lg) in *. set (sm := sigma_min RF lg) in *. clearbody sg sm. clear Hsm HGS lg1.
  assert (exists h, lg = S h) as [h Eh] by (exists (lg - 1)%nat; destruct Hlg as [->| ->]; reflexivity). clear Hlg.
  revert Lf Lg LF LG HN Lc St lg10 GL LTT HGS' ETW. rewrite Eh. clear Eh. clear lg. intros.
  set (lg := S h) in *.
  set (e := fun a : list Z * list Z => (ft (emb (ofl Z 0%Z N (fst a))) : list Cx, ft (emb (ofl Z 0%Z N (snd a))) : list Cx)).
  set (dom := fun a : list Z * list Z => length (fst a) = N /\ length (snd a) = N).
  set (tst := fun (a : list Z * list Z) (z : list Cx * list Cx) => is_fft lg (fst z) (fst a) && is_fft lg (snd z) (snd a)).
  set (p := ff_prog RF exact_table T lg 0 (ft (tp0 lg F_ c)) (ft (tp1 lg f c)) 0).
  destruct (root_law h lg10 f g F_ G_ Lf Lg LF LG HN HGS' BF BG T sg sm c Sg Sm Hc LTT St GL) as [Hsd Hlaw]. fold lg in Hsd, Hlaw. fold p in Hsd, Hlaw.
  assert (Hd : deep RF (2 * N) p) by (apply (deep_ff RF sm (fun x => x) (fun x => x) (thx sm))).
  assert (Hs0 : sg <> 0) by lra.
  assert (Ev : forall l, length l = N -> ft (emb (ofl Z 0%Z N l)) = values lg (map Cz l)).
  { intros l Ll. rewrite ft_values. f_equal. unfold emb. apply (@list_ext Cx Czero); [rewrite pl_length, map_length; symmetry; exact Ll|]. rewrite pl_length. intros i Hi.
    etransitivity; [apply nth_tab; exact Hi|]. rewrite pc_ofl by exact Hi. rewrite (nth_indep _ Czero (Cz 0%Z)) by (rewrite map_length, Ll; exact Hi). symmetry. apply map_nth. }
  assert (Hex : forall x, exists cs : list call, pcalls p cs (e x)) by (intros x; exact (root_ex h lg10 f g F_ G_ Lf Lg LF LG HN T sg c Hs0 LTT St _ _)).
  assert (Hun : forall x (cs cs' : list call), pcalls p cs (e x) -> pcalls p cs' (e x) -> cs = cs') by (intros x; exact (root_un h lg10 f g F_ G_ Lf Lg LF LG HN T sg c Hs0 LTT St _ _)).
  assert (Zi : forall a b : list Z, length a = N -> length b = N -> ft (emb (ofl Z 0%Z N a)) = ft (emb (ofl Z 0%Z N b)) -> a = b).
  { intros a b La Lb E. rewrite <- (pl_ofl Z 0%Z N a La), <- (pl_ofl Z 0%Z N b Lb). f_equal. exact (ft_emb_inj lg lg10 _ _ E). }
  assert (Hinj : forall x y, dom x -> dom y -> e x = e y -> x = y).
  { intros [x0 x1] [y0 y1] [Dx0 Dx1] [Dy0 Dy1] E. unfold e in E. cbn [fst snd] in *. f_equal; apply Zi; try assumption; [exact (f_equal fst E)|exact (f_equal snd E)]. }
  assert (Htst : forall x a, dom x -> (tst x a = true <-> a = e x)).
  { intros x [z0 z1] [D0 D1]. unfold tst, e. cbn [fst snd]. rewrite Bool.andb_true_iff, !is_fft_ok, !Ev by assumption. split; [intros [-> ->]; reflexivity|]. intros E. split; [exact (f_equal fst E)|exact (f_equal snd E)]. }
  assert (Res := root_res h lg10 f g F_ G_ Lf Lg LF LG HN T sg c Hs0 LTT St).
  assert (Hlen : forall x (cs : list call), pcalls p cs (e x) -> length cs = (2 * N)%nat) by (intros x cs H; destruct (Res cs _ H) as (_ & _ & _ & L & _); exact L).
  destruct (ideal_fun _ _ p e Hex Hun) as [I HI]. exists I.
  assert (Esam : forall k w x, samples lg (ff_sampling RF exact_table k lg 0 (ft (tp0 lg F_ c)) (ft (tp1 lg f c)) T 0 sm (stream w) 0) x = ends_with (tst x) (@run RF sm _ k (stream w) p 0)).
  { intros k w x. rewrite run_ff. fold p. destruct (@run RF sm _ k (stream w) p 0) as [[z n]| |]; reflexivity. }
  assert (Efin : forall k w, finishes (ff_sampling RF exact_table k lg 0 (ft (tp0 lg F_ c)) (ft (tp1 lg f c)) T 0 sm (stream w) 0) = ends_with (fun _ => true) (@run RF sm _ k (stream w) p 0)).
  { intros k w. rewrite run_ff. fold p. destruct (@run RF sm _ k (stream w) p 0) as [[z n]| |]; reflexivity. }
  split; [|split; [|split]].
  - intros a La0 La1. destruct (Hex a) as [cs Hcs]. destruct (Res cs _ Hcs) as (a0 & a1 & Ez & Lcs & Ds & En).
    assert (E0 : ofl Z 0%Z N (fst a) = a0) by (apply (ft_emb_inj lg lg10); exact (f_equal fst Ez)). assert (E1 : ofl Z 0%Z N (snd a) = a1) by (apply (ft_emb_inj lg lg10); exact (f_equal snd Ez)). subst a0 a1.
    exists cs, (map (fun k => gsum (stddev k) (centre k)) cs).
    assert (Fs : Forall (fun k => sm <= stddev k <= 18205 / 10000) cs).
    { rewrite Forall_forall. intros k Hk. assert (In (stddev k) (map stddev cs)) as Hin by (apply in_map; exact Hk). rewrite Ds in Hin. unfold twice in Hin. apply in_flat_map in Hin. destruct Hin as (y & Hy & Hin).
      apply in_rev, in_map_iff in Hy. destruct Hy as (lf & <- & Hlf). unfold ok_leaves in GL. rewrite Forall_forall in GL. assert (G := GL lf Hlf). cbn [In] in Hin. destruct Hin as [<-|[<-|[]]]; exact G. }
    split; [exact Lcs|]. split; [rewrite Ds; exact ETW|]. split; [exact Fs|]. split.
    + clear - Fs Sm. induction Fs as [|k cs Hk F IH]; constructor; [apply gsum_ok; lra|exact IH].
    + rewrite (HI a cs Hcs), (id_energy _ p cs (e a) Hsd Hcs), En. f_equal. f_equal. f_equal. unfold Rdiv. rewrite Rmult_comm. f_equal. f_equal. f_equal; f_equal.
      * unfold sv0. rewrite !pl_psub, !negacyclic_zmul, pl_ofl by exact Lc. reflexivity.
      * unfold sv1. rewrite pl_padd, !negacyclic_zmul. reflexivity.
  - apply (idx_total _ _ p e dom Hsd Hex Hun Hinj); [|exact HI]. intros cs z Hcs. destruct (Res cs z Hcs) as (a0 & a1 & Ez & _).
    exists (zpl a0, zpl a1). split; [split; apply pl_length|]. rewrite Ez. unfold e. cbn [fst snd]. rewrite !(ofl_pl Z 0%Z N). reflexivity.
  - intros k n L Hn Nl Dl. rewrite (lsum_ext _ (fun x => Rabs (prob n (fun w => ends_with (tst x) (@run RF sm _ k (stream w) p 0)) - I x))).
    + apply (idx_tv sm _ _ p e dom tst (2 * N) Hlaw Hsd Hd Hex Hun Hinj Htst Hlen I HI); [lia|exact Dl|exact Nl].
    + intros x _. f_equal. f_equal. apply prob_ext. intros w. apply Esam.
  - intros k n Hn. assert (B := prob_ends RF sm (fun x => x) (fun x => x) (thx sm) k n (2 * N) p Hlaw Hd ltac:(lia)).
    replace (prob n (fun w => finishes (ff_sampling RF exact_table k lg 0 (ft (tp0 lg F_ c)) (ft (tp1 lg f c)) T 0 sm (stream w) 0))) with (prob n (fun w => ends_with (fun _ => true) (@run RF sm _ k (stream w) p 0))); [exact B|].
    apply prob_ext. intros w. symmetry. apply Efin.
Qed.
End Key.

Lemma joint_key : let k := cst (2 ^ 9) in ntru (2 ^ 9) (k 100%Z) (k 1%Z) (k 11%Z) (k 123%Z) /\ gs_norm 9 (k 100%Z) (k 1%Z) <= 117 / 100 * (117 / 100) * 12289 /\
  sigma_min RF 9 * sigma_min RF 9 * gs_norm 9 (k 100%Z) (k 1%Z) <= sigma_value RF 9 * sigma_value RF 9 /\
  Forall (fun x => Z.abs x <= 27000)%Z (k 11%Z) /\ Forall (fun x => Z.abs x <= 27000)%Z (k 123%Z).
Proof.
  cbv zeta. destruct key_100 as [A B]. split; [exact A|]. split; [exact B|]. split.
  - rewrite cst_gs by reflexivity. change (100 * 100 + 1 * 1)%Z with 10001%Z. change (q * q)%Z with 151019521%Z.
    assert (M : Rmax (IZR 10001) (IZR 151019521 / IZR 10001) <= 15101) by (apply Rmax_lub; lra).
    rewrite sigma_9. change (sigma_min RF 9) with (flit RF 1277833697 9). unfold flit. cbn. nra.
  - split; unfold cst; (constructor; [lia|]); rewrite Forall_forall; intros x Hx; apply repeat_spec in Hx; subst x; lia.
Qed.
