(** P_ntru2.v -- when ntru_solve fails; key generation (gen_poly, ntru_gen, keygen). *)
From Verif Require Import Base Ring Poly Spec M_ff M_xform P_xform M_ntt P_ntt P_nttx M_codec P_codec P_keys M_float M_samp P_samp P_sampz M_fft M_ntru P_ntru M_sig M_verify M_tree.
From Coq Require Import Ring_theory Ring.
Open Scope Z_scope.

(** ** failure of ntru_solve *)
Lemma xgcd_loop_nonneg : forall fuel old_r r old_s s old_t t a b g, 0 <= old_r -> 0 <= r ->
  xgcd_loop fuel old_r r old_s s old_t t = Ok (a, b, g) -> 0 <= g.
Proof.
  induction fuel as [|fuel IH]; intros old_r r old_s s old_t t a b g H1 H2; cbn [xgcd_loop]; cbv zeta;
    destruct (Z.eqb_spec r 0) as [Hr|Hr]; cbn [negb]; intros H; try discriminate.
  - injection H as <- <- <-; exact H1.
  - injection H as <- <- <-; exact H1.
  - apply IH in H; [exact H|exact H2|].
    replace (old_r - Z.quot old_r r * r) with (Z.rem old_r r) by (rewrite Z.rem_eq by exact Hr; ring).
    apply Z.rem_nonneg; assumption.
Qed.
Lemma xgcd_gcd fuel x y a b g : 0 <= x -> 0 <= y -> xgcd fuel x y = Ok (a, b, g) -> g = Z.gcd x y.
Proof.
  intros Hx Hy H. pose proof (xgcd_loop_nonneg _ _ _ _ _ _ _ _ _ _ Hx Hy H).
  apply xgcd_sound in H. destruct H as [_ H]. lia.
Qed.

Lemma norm_to_Z_S lg f : norm_to_Z (S lg) f = norm_to_Z lg (tab (2 ^ lg) (fun i => nth (2 * i) (negacyclic (2 ^ S lg) f (at_minus_x (2 ^ S lg) f)) 0)).
Proof. reflexivity. Qed.
Lemma norm_rec lg f : length f = (2 ^ S lg)%nat ->
  pl Z (2 ^ lg) (znorm (zof (2 * 2 ^ lg) f)) =
  tab (2 ^ lg) (fun i => nth (2 * i) (negacyclic (2 ^ S lg) f (at_minus_x (2 ^ S lg) f)) 0).
Proof.
  intros L. apply (list_ext 0); [rewrite pl_length, tab_length; reflexivity|]. rewrite pl_length. intros i Hi.
  rewrite nth_tab by exact Hi. change (2 ^ S lg)%nat with (2 * 2 ^ lg)%nat in *. set (n := (2 ^ lg)%nat) in *.
  rewrite negacyclic_zmul.
  replace (zof (2 * n) (at_minus_x (2 * n) f)) with (pconj Z 0 Z.opp (zof (2 * n) f)).
  2: { apply (pv_ext Z 0). intros k Hk. unfold pconj, at_minus_x. rewrite pc_mkp, !pc_ofl, nth_tab by exact Hk. reflexivity. }
  rewrite <- (pnorm_lift _ _ _ _ _ _ _ Zth') by (unfold n; apply pow2_pos).
  change (nth (2 * i) (pl Z (2 * n) ?p) 0) with (zc p (2 * i)).
  rewrite pc_lift_even by exact Hi. reflexivity.
Qed.

(** the norm of a vector of length 2 is a sum of two squares; hence norms are nonnegative for lg >= 1 *)
Lemma norm1_nonneg (p : zpv (2 * 1)) : 0 <= zc (znorm p) 0.
Proof.
  assert (E : zc (znorm p) 0 = zc p 0 * zc p 0 + zc p 1 * zc p 1); [|nia].
  unfold pnorm. rewrite pc_sub by lia. rewrite (pc_px_mul _ _ _ _ _ _ _ Zth') by lia. unfold sh. cbn [Nat.leb Nat.add Nat.sub].
  rewrite !pc_mul by lia. unfold nconv, sh. cbn [rsum Nat.leb Nat.sub]. unfold Poly.pev, Poly.pod. rewrite !pc_mkp by lia.
  change (2 * 0)%nat with 0%nat. change (0 + 1)%nat with 1%nat. ring.
Qed.
Lemma norm_nonneg lg : forall f, length f = (2 ^ S lg)%nat -> 0 <= norm_to_Z (S lg) f.
Proof.
  induction lg as [|lg IH]; intros f L.
  - rewrite norm_to_Z_S, <- norm_rec by exact L. apply norm1_nonneg.
  - rewrite norm_to_Z_S, <- norm_rec by exact L. apply (IH (pl Z _ _)). apply pl_length.
Qed.

Section Solve.
Variable F : fops.
Variable ztab : list (D F * D F).

Lemma ntru_solve_gcd fuel lg : forall f g r, length f = (2 ^ lg)%nat -> length g = (2 ^ lg)%nat ->
  ntru_solve F ztab fuel lg f g = Ok r ->
  exists a b d, xgcd fuel (norm_to_Z lg f) (norm_to_Z lg g) = Ok (a, b, d) /\ (r = None <-> d <> 1).
Proof.
  induction lg as [|lg IH]; intros f g r Lf Lg H.
  - destruct f as [|x [|? ?]], g as [|y [|? ?]]; try discriminate. cbn [ntru_solve norm_to_Z nth] in *.
    change (rd [x] 0) with (Ok x) in H. change (rd [y] 0) with (Ok y) in H. cbn [bind] in H.
    apply bind_Ok in H; destruct H as [[[a b] d] [E H]]. exists a, b, d. split; [exact E|].
    destruct (Z.eqb_spec d 1); cbn [negb] in H; inversion H; split; intros; congruence.
  - cbn [ntru_solve] in H. rewrite !field_norm_ok in H by assumption. cbn [bind] in H.
    binv H. apply IH in E; [|apply pl_length|apply pl_length].
    destruct E as [u [v [d [E1 E2]]]]. exists u, v, d. rewrite !norm_to_Z_S, <- !norm_rec by assumption. split; [exact E1|].
    destruct a as [[F1 G1]|].
    + do 7 binv H. destruct a5 as [? ?]. injection H as <-. rewrite <- E2. split; discriminate.
    + injection H as <-. exact E2.
Qed.

(** for N >= 2: a failure is reported exactly when the norms are not coprime *)
Lemma ntru_solve_complete fuel lg f g r : length f = (2 ^ S lg)%nat -> length g = (2 ^ S lg)%nat ->
  ntru_solve F ztab fuel (S lg) f g = Ok r ->
  (r = None <-> Z.gcd (norm_to_Z (S lg) f) (norm_to_Z (S lg) g) <> 1).
Proof.
  intros Lf Lg H. apply ntru_solve_gcd in H; try assumption. destruct H as [a [b [d [E H]]]].
  apply xgcd_gcd in E; [|apply norm_nonneg; assumption|apply norm_nonneg; assumption]. subst d. exact H.
Qed.

(** ** gen_poly *)
(** adding a small integer to floor(0.0) and converting back is exact; true of IEEE doubles *)
Definition small_exact : Prop := forall z, -18 <= z <= 19 -> to_i32 F (fadd F (fofz F z) (ffloor F (fofz F 0))) = Ok z.

Lemma gen_coeff_ok fuel lg k g pos r pos' : small_exact -> (forall i, byte (g i)) -> (k <= 1000)%nat ->
  gen_coeff F fuel lg k g pos = Ok (r, pos') -> -18 * Z.of_nat k <= r <= 19 * Z.of_nat k.
Proof.
  intros Hs Hg Hk E. unfold gen_coeff in E.
  apply (forn_inv_ok (fun i '(r, _) => -18 * Z.of_nat i <= r <= 19 * Z.of_nat i)) in E; [exact E|lia|].
  intros j [r0 p0] [r1 p1] Hj H Eb. apply bind_Ok in Eb. destruct Eb as [[z p2] [Ez Eb]].
  apply samplerz_range in Ez; [|exact Hg]. destruct Ez as [n [z' [_ [_ [Hz Ez]]]]]. rewrite Hs in Ez by exact Hz. injection Ez as <-.
  unfold s32 in Eb. assert (Hb : ((-2147483648 <=? r0 + z') && (r0 + z' <? 2147483648))%bool = true) by lia.
  rewrite Hb in Eb. cbn [bind] in Eb. injection Eb as <- <-. lia.
Qed.

Definition coeff_bound (lg : nat) (x : Z) : Prop := -18 * (4096 / 2 ^ Z.of_nat lg) <= x <= 19 * (4096 / 2 ^ Z.of_nat lg).

Lemma gen_poly_ok fuel lg g pos p0 p pos' : small_exact -> (forall i, byte (g i)) -> falcon_lg lg -> length p0 = (2 ^ lg)%nat ->
  gen_poly F fuel lg g pos p0 = Ok (p, pos') -> length p = (2 ^ lg)%nat /\ Forall (coeff_bound lg) p.
Proof.
  intros Hs Hg Hlg L E. unfold gen_poly in E.
  assert (HK : (4096 / 2 ^ lg <= 1000)%nat /\ Z.of_nat (4096 / 2 ^ lg) = 4096 / 2 ^ Z.of_nat lg).
  { destruct Hlg as [-> | ->]; vm_compute; split; lia || reflexivity. }
  destruct HK as [HK1 HK2].
  apply (forn_inv_ok (fun i '(p, _) => length p = (2 ^ lg)%nat /\ forall j, (j < i)%nat -> (j < 2 ^ lg)%nat -> coeff_bound lg (nth j p 0))) in E.
  - destruct E as [L' E]. split; [exact L'|]. apply (Forall_nth_intro _ _ 0). rewrite L'. intros i Hi. apply E; lia.
  - split; [exact L|]. intros; lia.
  - intros i [v pp] [v' pp'] Hi [Lv H] Eb. apply bind_Ok in Eb. destruct Eb as [[r q1] [Er Eb]].
    apply bind_Ok in Eb. destruct Eb as [v1 [Ew Eb]]. injection Eb as <- <-.
    apply gen_coeff_ok in Er; [|exact Hs|exact Hg|exact HK1].
    rewrite wr_Ok in Ew by lia. injection Ew as <-. split; [rewrite upd_length; exact Lv|].
    intros j Hj1 Hj2. rewrite nth_upd by lia. destruct (Nat.eqb_spec j i); [unfold coeff_bound; rewrite <- HK2; exact Er|apply H; [clear -Hj1 n; lia|exact Hj2]].
Qed.

Lemma coeff_small lg x : falcon_lg lg -> coeff_bound lg x -> smallq x /\ -144 <= x <= 152.
Proof. intros [-> | ->]; unfold coeff_bound, smallq, q; simpl Z.of_nat; [change (4096 / 2 ^ 9) with 8|change (4096 / 2 ^ 10) with 4]; lia. Qed.

(** ** conversion to int32_t *)
Lemma get_si_mod v : (i32 (get_si v) - v) mod 2 ^ 32 = 0.
Proof.
  unfold i32, get_si. change 4294967296 with (2 ^ 32).
  assert (E : forall w, (w mod 2 ^ 63) mod 2 ^ 32 = w mod 2 ^ 32).
  { intros w. rewrite (Z.mod_eq w (2 ^ 63)) by lia. replace (w - 2 ^ 63 * (w / 2 ^ 63)) with (w + - (2 ^ 31 * (w / 2 ^ 63)) * 2 ^ 32) by ring. apply Z_mod_plus_full. }
  destruct (Z.geb_spec v 0).
  - replace ((v mod 2 ^ 63 + 2147483648) mod 2 ^ 32 - 2147483648 - v) with ((v mod 2 ^ 63 + 2147483648) mod 2 ^ 32 - (v + 2147483648)) by ring.
    rewrite Zminus_mod_idemp_l. replace (v mod 2 ^ 63 + 2147483648 - (v + 2147483648)) with (v mod 2 ^ 63 - v) by ring.
    rewrite <- Zminus_mod_idemp_l, E, Zminus_mod_idemp_l, Z.sub_diag. reflexivity.
  - set (w := - v - 1).
    replace ((-1 - w mod 2 ^ 63 + 2147483648) mod 2 ^ 32 - 2147483648 - v) with ((-1 - w mod 2 ^ 63 + 2147483648) mod 2 ^ 32 - (v + 2147483648)) by ring.
    rewrite Zminus_mod_idemp_l. replace (-1 - w mod 2 ^ 63 + 2147483648 - (v + 2147483648)) with (w - w mod 2 ^ 63) by (unfold w; ring).
    rewrite <- Zminus_mod_idemp_r, E, Zminus_mod_idemp_r, Z.sub_diag. reflexivity.
Qed.
Lemma get_si_id v : -2147483648 <= v < 2147483648 -> i32 (get_si v) = v.
Proof.
  intros H. assert (E : get_si v = v). { unfold get_si. destruct (Z.geb_spec v 0); rewrite Z.mod_small by lia; lia. }
  rewrite E. apply i32_id; exact H.
Qed.

Lemma conv_loop n (F' G' F0 G0 : list Z) : length F' = n -> length G' = n -> length F0 = n -> length G0 = n ->
  forn n 0 (fun i '(F_, G_) =>
    x <- rd F' i ;; F_ <- wr F_ i (i32 (get_si x)) ;;
    y <- rd G' i ;; G_ <- wr G_ i (i32 (get_si y)) ;; Ok (F_, G_)) (F0, G0) =
  Ok (map (fun x => i32 (get_si x)) F', map (fun x => i32 (get_si x)) G').
Proof.
  intros L1 L2 L3 L4.
  match goal with |- forn ?m 0 ?body ?init = _ =>
    destruct (forn_inv (fun i '(e, o) => filled Z 0 n i (fun i => i32 (get_si (nth i F' 0))) (fun i => nth i F0 0) e /\
       filled Z 0 n i (fun i => i32 (get_si (nth i G' 0))) (fun i => nth i G0 0) o) m 0%nat body init) as [[e o] [E [P1 P2]]] end.
  - split; apply filled_start; assumption.
  - intros i [e o] Hi [F1 F2]. simpl in Hi. assert (Hi' : (i < n)%nat) by lia.
    rewrite (rd_Ok F' _ 0) by lia. cbn [bind]. destruct (filled_wr _ _ _ _ _ _ _ Hi' F1) as [-> G1]. cbn [bind].
    rewrite (rd_Ok G' _ 0) by lia. cbn [bind]. destruct (filled_wr _ _ _ _ _ _ _ Hi' F2) as [-> G2]. cbn [bind].
    eexists; split; [reflexivity|]. split; assumption.
  - rewrite E. simpl in P1, P2. apply filled_end in P1, P2. subst e o. f_equal. f_equal.
    + apply (list_ext 0); [rewrite tab_length, map_length; lia|]. rewrite tab_length. intros i Hi. rewrite nth_tab by exact Hi.
      symmetry. etransitivity; [apply nth_indep with (d' := i32 (get_si 0)); rewrite map_length; lia|]. exact (map_nth (fun x => i32 (get_si x)) F' 0 i).
    + apply (list_ext 0); [rewrite tab_length, map_length; lia|]. rewrite tab_length. intros i Hi. rewrite nth_tab by exact Hi.
      symmetry. etransitivity; [apply nth_indep with (d' := i32 (get_si 0)); rewrite map_length; lia|]. exact (map_nth (fun x => i32 (get_si x)) G' 0 i).
Qed.

(** ** ntru_gen *)
Lemma ntru_gen_ok fuel sfuel lg rng : small_exact -> (forall i, byte (rng i)) -> falcon_lg lg ->
  forall pos f0 g0 F0 G0 f g F_ G_ pos',
  length f0 = (2 ^ lg)%nat -> length g0 = (2 ^ lg)%nat -> length F0 = (2 ^ lg)%nat -> length G0 = (2 ^ lg)%nat ->
  ntru_gen F ztab fuel sfuel lg rng pos f0 g0 F0 G0 = Ok (f, g, F_, G_, pos') ->
  length f = (2 ^ lg)%nat /\ length g = (2 ^ lg)%nat /\ Forall (coeff_bound lg) f /\ Forall (coeff_bound lg) g /\
  is_poly_invertible lg f = Ok true /\
  (exists v, gram_schmidt_norm F ztab lg f g = Ok v /\ fgt F v (gs_norm_threshold F) = false) /\
  exists F' G', length F' = (2 ^ lg)%nat /\ length G' = (2 ^ lg)%nat /\ ntru (2 ^ lg) f g F' G' /\
    F_ = map (fun x => i32 (get_si x)) F' /\ G_ = map (fun x => i32 (get_si x)) G'.
Proof.
  intros Hs Hg Hlg. induction fuel as [|fuel IH]; intros pos f0 g0 F0 G0 f g F_ G_ pos' L1 L2 L3 L4 H; [discriminate|].
  cbn [ntru_gen] in H.
  apply bind_Ok in H; destruct H as [[f1 p1] [E1 H]]. apply gen_poly_ok in E1; try assumption. destruct E1 as [Lf Bf].
  apply bind_Ok in H; destruct H as [[g1 p2] [E2 H]]. apply gen_poly_ok in E2; try assumption. destruct E2 as [Lg Bg].
  apply bind_Ok in H; destruct H as [inv [Ei H]]. destruct inv; cbn [negb] in H; [|eapply IH; [..|exact H]; assumption].
  apply bind_Ok in H; destruct H as [v [Ev H]]. destruct (fgt F v (gs_norm_threshold F)) eqn:Et; [eapply IH; [..|exact H]; assumption|].
  apply bind_Ok in H; destruct H as [ret [Er H]]. destruct ret as [[F' G']|]; [|eapply IH; [..|exact H]; assumption].
  apply ntru_solve_ok in Er; try assumption. destruct Er as [LF [LG Er]].
  rewrite conv_loop in H by assumption. cbn [bind] in H. injection H as <- <- <- <- <-.
  split; [exact Lf|]. split; [exact Lg|]. split; [exact Bf|]. split; [exact Bg|]. split; [exact Ei|].
  split; [exists v; split; assumption|]. exists F', G'. auto.
Qed.
End Solve.
