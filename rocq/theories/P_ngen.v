(** P_ngen.v -- the pair f, g that ntru_gen returns is distributed as drawn, conditioned on its tests. *)
From Verif Require Import Base Spec SpecR SpecF SpecG SpecJ SpecK M_float M_ieee M_samp M_fft M_ntt M_ntru P_ntru P_codec P_near P_ieee P_float P_prob P_gsum P_conv P_convx P_genpoly P_kubx P_genx P_jgauss P_theta M_table.
From Coq Require Import Reals Lra.
From Verif Require Import P_genlaw.
Open Scope R_scope.

(** ** all vectors over a list *)
Fixpoint vecs (l : list Z) (n : nat) : list (list Z) := match n with O => [[]] | S m => flat_map (fun a => map (cons a) (vecs l m)) l end.
Lemma vecs_in l n : forall v, In v (vecs l n) <-> length v = n /\ Forall (fun x => In x l) v.
Proof.
  induction n as [|n IH]; intros v; cbn [vecs].
  - split; [intros [<-|[]]; split; [reflexivity|constructor]|intros [H _]; left; destruct v; [reflexivity|discriminate]].
  - rewrite in_flat_map. split.
    + intros (a & Ha & Hv). apply in_map_iff in Hv. destruct Hv as (w & <- & Hw). apply IH in Hw. destruct Hw as [L Fw]. split; [cbn [length]; rewrite L; reflexivity|constructor; assumption].
    + intros [L Fv]. destruct v as [|a v]; [discriminate|]. inversion Fv; subst. injection L as L. exists a. split; [assumption|]. apply in_map, IH. split; assumption.
Qed.
Lemma nodup_flat {A B} (f : A -> list B) l : NoDup l -> (forall a, In a l -> NoDup (f a)) -> (forall a b x, In a l -> In b l -> In x (f a) -> In x (f b) -> a = b) -> NoDup (flat_map f l).
Proof.
  intros N. induction N as [|a l Ha N IH]; intros H1 H2; cbn [flat_map]; [constructor|]. apply NoDup_app; [apply H1; left; reflexivity|apply IH; [intros; apply H1; right; assumption|intros b c x Hb Hc; apply H2; right; assumption]|].
  intros x Hx Hy. apply in_flat_map in Hy. destruct Hy as (b & Hb & Hxb). assert (a = b) by (apply (H2 a b x); [left; reflexivity|right; exact Hb|exact Hx|exact Hxb]). subst b. contradiction.
Qed.
Lemma vecs_nodup l n : NoDup l -> NoDup (vecs l n).
Proof.
  intros Nl. induction n as [|n IH]; cbn [vecs]; [repeat constructor; intros []|]. apply nodup_flat; [exact Nl|intros a _; apply NoDup_map_inj; [intros x y E; injection E; auto|exact IH]|].
  intros a b x _ _ Ha Hb. apply in_map_iff in Ha. apply in_map_iff in Hb. destruct Ha as (u & <- & _). destruct Hb as (w & E & _). injection E as ->. reflexivity.
Qed.
Definition pairs {A} (l : list A) : list (A * A) := flat_map (fun a => map (pair a) l) l.
Lemma pairs_in {A} (l : list A) p : In p (pairs l) <-> In (fst p) l /\ In (snd p) l.
Proof.
  unfold pairs. rewrite in_flat_map. destruct p as [a b]. cbn [fst snd]. split.
  - intros (x & Hx & H). apply in_map_iff in H. destruct H as (y & E & Hy). injection E as -> ->. split; assumption.
  - intros [Ha Hb]. exists a. split; [exact Ha|apply in_map, Hb].
Qed.
Lemma pairs_nodup {A} (l : list A) : NoDup l -> NoDup (pairs l).
Proof.
  intros N. apply nodup_flat; [exact N|intros a _; apply NoDup_map_inj; [intros x y E; injection E; auto|exact N]|]. intros a b x _ _ Ha Hb. apply in_map_iff in Ha. apply in_map_iff in Hb. destruct Ha as (u & <- & _). destruct Hb as (w & E & _). injection E as -> _. reflexivity.
Qed.
Lemma lsum_pairs {A} (f g : A -> R) l : lsum (fun p => f (fst p) * g (snd p)) (pairs l) = lsum f l * lsum g l.
Proof.
  unfold pairs. rewrite lsum_flat. rewrite (P_gsum.lsum_ext _ (fun a => lsum g l * f a)); [rewrite P_gsum.lsum_scal; ring|]. intros a _. rewrite lsum_map. cbn [fst snd]. rewrite P_gsum.lsum_scal. ring.
Qed.
Lemma law_never {A} (dec : forall x y : A, {x = y} + {x <> y}) (m : comp A) len v : (forall g p, m g p = UB) \/ (forall g p, m g p = Fuel) -> law dec m len v 0.
Proof. intros H f c n0 n Hf Hn. rewrite Rmult_0_r, <- (avg_const n 0). apply avg_ext. intros s _ _. unfold contm. destruct H as [H|H]; rewrite H; reflexivity. Qed.

(** ** one pass *)
Section Pass.
Variables lg fu : nat.
Hypothesis Hlg : falcon_lg lg.
Notation mu := (fofz F64 0).
Notation sg := (sigma_fg F64).
Notation sm := (sigma_min F64 lg).
Notation k := (4096 / 2 ^ lg)%nat.
Notation GL := (glist F64 mu sg sm fu k (2 ^ lg)).
Notation W := (2 ^ lg * (k * (18 * fu)))%nat.
Notation wt := (wt lg fu).
Definition pdec : forall x y : list Z * list Z, {x = y} + {x <> y}. Proof. decide equality; apply zl_dec. Defined.
Definition sup : list (list Z) := vecs (zr (19 * k)) (2 ^ lg).
Lemma glist_range n : forall g pos v p, (forall i, byte (g i)) -> glist F64 mu sg sm fu k n g pos = Ok (v, p) -> length v = n /\ Forall (fun x => In x (zr (19 * k))) v.
Proof.
  induction n as [|n IH]; intros g pos v p Hg E; cbn [glist] in E; [unfold ret in E; assert (v = []) by congruence; subst v; split; [reflexivity|constructor]|].
  unfold cbind at 1 in E. apply bind_Ok in E. destruct E as ([r p1] & E1 & E2). unfold cbind in E2. apply bind_Ok in E2. destruct E2 as ([l p2] & E2 & E3). unfold ret in E3. assert (Ev : v = r :: l) by congruence. subst v.
  apply IH in E2; [|exact Hg]. apply (gsum_range F64 mu sg sm gen_to) in E1; [|exact Hg]. split; [cbn [length]; rewrite (proj1 E2); reflexivity|]. constructor; [apply zr_in; lia|apply E2].
Qed.
Lemma gl_sup : ok_bytes GL sup.
Proof. intros s a p Hs E. apply vecs_in. apply (glist_range _ (stream s) 0 a p); [apply stream_byte, Hs|exact E]. Qed.
Lemma sup_nodup : NoDup sup. Proof. apply vecs_nodup, zr_nodup. Qed.
Lemma sup_len v : In v sup -> length v = (2 ^ lg)%nat. Proof. intros H. apply vecs_in in H. apply H. Qed.
Lemma wt_out v : length v = (2 ^ lg)%nat -> ~ In v sup -> wt v = 0.
Proof.
  intros L N. assert (E : ~ Forall (fun x => In x (zr (19 * k))) v) by (intros H; apply N, vecs_in; split; assumption). unfold P_kubx.wt. assert (Z0 : Rprod (map (convol (pp (tg lg)) k) v) = 0); [|rewrite Z0; ring].
  clear L N. induction v as [|x v IH]; [exfalso; apply E; constructor|]. unfold Rprod in *. cbn [map fold_right]. destruct (in_dec Z.eq_dec x (zr (19 * k))) as [I|I].
  - rewrite IH; [ring|]. intros H. apply E. constructor; assumption.
  - rewrite (convol_out (pp (tg lg)) (P_nn lg Hlg)); [ring|]. intros H. apply I, zr_in. lia.
Qed.
Lemma wt_range v : 0 <= wt v.
Proof.
  destruct (ww_range lg Hlg fu) as [H _]. unfold P_kubx.wt. apply Rmult_le_pos; [apply pow_le; lra|]. induction v as [|x v IH]; unfold Rprod in *; cbn [map fold_right]; [lra|]. apply Rmult_le_pos; [|exact IH]. apply (convol_nn (pp (tg lg)) (P_nn lg Hlg)).
Qed.
Lemma wt_sum : 0 <= lsum wt sup <= 1.
Proof.
  split; [apply lsum_pos, wt_range|]. destruct (ww_range lg Hlg fu) as [H _]. unfold P_kubx.wt. rewrite P_gsum.lsum_scal. set (w := ww fu (tg lg) ^ (k * 2 ^ lg)).
  assert (Hw : 0 <= w <= 1) by (unfold w; split; [apply pow_le; lra|rewrite <- (pow1 (k * 2 ^ lg)); apply pow_incr; lra]). clearbody w.
  assert (PS : lsum (pp (tg lg)) z38 <= 1) by (rewrite (P_sum lg Hlg); lra).
  assert (K := vec_sub1 (convol (pp (tg lg)) k) (2 ^ lg) (convol_sub1 _ (P_nn lg Hlg) PS k) sup sup_nodup ltac:(apply Forall_forall; exact sup_len)).
  set (x := lsum _ sup) in *. clearbody x. nra.
Qed.
Definition pass : comp (list Z * list Z) := cbind GL (fun f => cbind GL (fun g => ret (f, g))).
Lemma pass_shifts : shifts pass.
Proof. apply shifts_bind; [apply glist_shifts|]. intros f. apply shifts_bind; [apply glist_shifts|]. intros g. apply shifts_ret. Qed.
Lemma pass_sup : ok_bytes pass (pairs sup).
Proof.
  intros s a p Hs E. unfold pass, cbind in E. apply bind_Ok in E. destruct E as ([f p1] & E1 & E). apply bind_Ok in E. destruct E as ([g p2] & E2 & E3). unfold ret in E3. assert (a = (f, g)) by congruence. subst a. apply pairs_in. cbn [fst snd].
  split; apply vecs_in; [apply (glist_range _ (stream s) 0 f p1)|apply (glist_range _ (stream s) p1 g p2)]; try assumption; apply stream_byte, Hs.
Qed.
Lemma pass_law f g : length f = (2 ^ lg)%nat -> length g = (2 ^ lg)%nat -> law pdec pass (W + W) (f, g) (wt f * wt g).
Proof.
  intros Lf Lg. replace (wt f * wt g) with (lsum (fun a => wt a * (if zl_dec a f then wt g else 0)) sup).
  - apply (law_bind zl_dec pdec GL (fun f => cbind GL (fun g => ret (f, g))) sup W W wt (f, g) (fun a => if zl_dec a f then wt g else 0)).
    + exact sup_nodup.
    + exact gl_sup.
    + intros a. apply shifts_bind; [apply glist_shifts|intros b; apply shifts_ret].
    + intros a Ha. apply (gl_law lg fu Hlg). apply sup_len, Ha.
    + intros a _. destruct (zl_dec a f) as [->|N]; [apply (law_map zl_dec pdec _ (pair f)); [intros x y E; injection E; auto|apply (gl_law lg fu Hlg), Lg]|].
      apply (law_len pdec _ 0); [|apply Nat.le_0_l]. apply (law_map_off pdec _ (pair a)). intros x E. injection E as E _. contradiction.
  - destruct (in_dec zl_dec f sup) as [I|I].
    + rewrite (lsum_one _ _ f sup_nodup I); [destruct (zl_dec f f); [reflexivity|contradiction]|]. intros a _ N. destruct (zl_dec a f); [contradiction|ring].
    + rewrite (wt_out f Lf I), Rmult_0_l. apply lsum_zero. intros a Ha. destruct (zl_dec a f) as [->|_]; [contradiction|ring].
Qed.

(** ** the loop *)
Variable cls : list Z * list Z -> res bool.
Fixpoint ng (m : nat) : comp (list Z * list Z) :=
  match m with O => fun _ _ => Fuel | S m' => cbind pass (fun fg => match cls fg with Ok true => ret fg | Ok false => ng m' | UB => fun _ _ => UB | Fuel => fun _ _ => Fuel end) end.
Lemma ng_shifts m : shifts (ng m).
Proof.
  induction m as [|m IH]; cbn [ng]; [intros g g' p q _; reflexivity|]. apply shifts_bind; [exact pass_shifts|]. intros fg. destruct (cls fg) as [[|]| |]; [apply shifts_ret|exact IH|intros g g' p q _; reflexivity|intros g g' p q _; reflexivity].
Qed.
(** probability that a pass is repeated *)
Definition again : R := lsum (fun p => wt (fst p) * wt (snd p) * (match cls p with Ok false => 1 | _ => 0 end)) (pairs sup).
Fixpoint geo (m : nat) : R := match m with O => 0 | S m' => 1 + again * geo m' end.
Definition win (p : list Z * list Z) : R := match cls p with Ok true => 1 | _ => 0 end.
Lemma again_range : 0 <= again <= 1.
Proof.
  assert (P : forall p, 0 <= wt (fst p) * wt (snd p)) by (intros p; apply Rmult_le_pos; apply wt_range). split.
  - apply lsum_pos. intros p. specialize (P p). destruct (cls p) as [[|]| |]; lra.
  - apply Rle_trans with (lsum (fun p => wt (fst p) * wt (snd p)) (pairs sup)); [apply lsum_le; intros p _; specialize (P p); destruct (cls p) as [[|]| |]; lra|]. rewrite (lsum_pairs wt wt). assert (K := wt_sum). nra.
Qed.
Lemma geo_range m : 1 <= geo (S m) <= INR (S m).
Proof. assert (A := again_range). induction m as [|m IH]; cbn [geo]; [simpl; lra|]. rewrite S_INR. cbn [geo] in IH. nra. Qed.
Lemma ng_law m f g : length f = (2 ^ lg)%nat -> length g = (2 ^ lg)%nat -> law pdec (ng m) (m * (W + W)) (f, g) (geo m * (win (f, g) * (wt f * wt g))).
Proof.
  intros Lf Lg. induction m as [|m IH]; [cbn [ng geo]; rewrite Rmult_0_l; apply law_never; right; reflexivity|]. cbn [ng geo]. 
  set (L := geo m * (win (f, g) * (wt f * wt g))) in *.
  set (wb := fun p => match cls p with Ok true => if pdec p (f, g) then 1 else 0 | Ok false => L | _ => 0 end).
  replace ((1 + again * geo m) * (win (f, g) * (wt f * wt g))) with (lsum (fun p => wt (fst p) * wt (snd p) * wb p) (pairs sup)).
  - change (S m * (W + W))%nat with (W + W + m * (W + W))%nat. apply (law_bind pdec pdec pass _ (pairs sup) (W + W) (m * (W + W)) (fun p => wt (fst p) * wt (snd p)) (f, g) wb).
    + apply pairs_nodup, sup_nodup.
    + exact pass_sup.
    + intros p. destruct (cls p) as [[|]| |]; [apply shifts_ret|apply ng_shifts|intros g0 g' p0 q0 _; reflexivity|intros g0 g' p0 q0 _; reflexivity].
    + intros [a b] Hp. apply pairs_in in Hp. cbn [fst snd] in *. apply pass_law; apply sup_len; apply Hp.
    + intros p _. unfold wb. destruct (cls p) as [[|]| |]; [|exact IH|apply law_never; left; reflexivity|apply law_never; right; reflexivity].
      apply (law_len pdec _ 0); [apply law_ret|apply Nat.le_0_l].
  - transitivity (lsum (fun p => L * (wt (fst p) * wt (snd p) * (match cls p with Ok false => 1 | _ => 0 end)) + (if pdec p (f, g) then win (f, g) * (wt f * wt g) else 0)) (pairs sup)).
    + apply P_gsum.lsum_ext. intros p _. unfold wb. destruct (pdec p (f, g)) as [->|N]; [|destruct (cls p) as [[|]| |]; ring]. cbn [fst snd]. unfold win. destruct (cls (f, g)) as [[|]| |]; ring.
    + rewrite lsum_plus, P_gsum.lsum_scal. fold again.
      assert (E : lsum (fun p => if pdec p (f, g) then win (f, g) * (wt f * wt g) else 0) (pairs sup) = win (f, g) * (wt f * wt g)); [|rewrite E; unfold L; ring].
      destruct (in_dec pdec (f, g) (pairs sup)) as [I|I].
      * rewrite (lsum_one _ _ (f, g) (pairs_nodup _ sup_nodup) I); [destruct (pdec (f, g) (f, g)); [reflexivity|contradiction]|]. intros a _ N. destruct (pdec a (f, g)); [contradiction|reflexivity].
      * rewrite lsum_zero; [|intros a Ha; destruct (pdec a (f, g)) as [->|_]; [contradiction|reflexivity]]. rewrite pairs_in in I. cbn [fst snd] in I.
        destruct (in_dec zl_dec f sup) as [J|J]; [|rewrite (wt_out f Lf J); ring]. destruct (in_dec zl_dec g sup) as [J'|J']; [tauto|rewrite (wt_out g Lg J'); ring].
Qed.
End Pass.

(** ** ntru_gen *)
Section Gen.
Variable ztab : list (D F64 * D F64).
Variables lg sf : nat.
Hypothesis Hlg : falcon_lg lg.
Definition verdict (p : list Z * list Z) : res bool :=
  inv <- is_poly_invertible lg (fst p) ;;
  if negb inv then Ok false
  else v <- gram_schmidt_norm F64 ztab lg (fst p) (snd p) ;;
    if fgt F64 v (gs_norm_threshold F64) then Ok false
    else r <- ntru_solve F64 ztab sf lg (fst p) (snd p) ;; Ok (match r with None => false | Some _ => true end).
Lemma kept_verdict p : win verdict p = if kept F64 ztab sf lg (fst p) (snd p) then 1 else 0.
Proof.
  unfold win, verdict, kept. destruct (is_poly_invertible lg (fst p)) as [[|]| |]; cbn [bind negb]; try reflexivity. destruct (gram_schmidt_norm F64 ztab lg (fst p) (snd p)) as [v| |]; cbn [bind]; try reflexivity.
  destruct (fgt F64 v (gs_norm_threshold F64)); cbn [negb]; destruct (ntru_solve F64 ztab sf lg (fst p) (snd p)) as [[?|]| |]; reflexivity.
Qed.
Lemma rejected_verdict p : (match verdict p with Ok false => 1 | _ => 0 end) = P_prob.ind (rejected F64 ztab sf lg (fst p) (snd p)).
Proof.
  unfold verdict, rejected. destruct (is_poly_invertible lg (fst p)) as [[|]| |]; cbn [bind negb]; try reflexivity. destruct (gram_schmidt_norm F64 ztab lg (fst p) (snd p)) as [v| |]; cbn [bind]; try reflexivity.
  destruct (fgt F64 v (gs_norm_threshold F64)); cbn [orb]; try reflexivity. destruct (ntru_solve F64 ztab sf lg (fst p) (snd p)) as [[?|]| |]; reflexivity.
Qed.
Lemma geo_sum m : geo lg sf verdict m = rsum m (fun i => again lg sf verdict ^ i).
Proof.
  induction m as [|m IH]; [reflexivity|]. cbn [geo]. rewrite IH. set (r := again lg sf verdict). clearbody r. clear IH. induction m as [|m IH]; [cbn [rsum pow]; ring|]. change (rsum (S (S m)) (fun i => r ^ i)) with (rsum (S m) (fun i => r ^ i) + r ^ S m). transitivity (1 + r * rsum m (fun i => r ^ i) + r ^ S m); [|rewrite IH; reflexivity]. replace (rsum (S m) (fun i => r ^ i)) with (rsum m (fun i => r ^ i) + r ^ m) by reflexivity. cbn [pow]. ring.
Qed.
(** the probability of another pass, over any list with all pairs that can be drawn *)
Lemma again_over (A B : list Z -> R) L : (forall v, length v = (2 ^ lg)%nat -> A v = wt lg sf v) -> (forall v, length v = (2 ^ lg)%nat -> B v = wt lg sf v) -> NoDup L ->
  (forall p, In p L -> length (fst p) = (2 ^ lg)%nat /\ length (snd p) = (2 ^ lg)%nat) -> (forall f g, length f = (2 ^ lg)%nat -> length g = (2 ^ lg)%nat -> A f * B g <> 0 -> In (f, g) L) ->
  lsum (fun p => P_prob.ind (rejected F64 ztab sf lg (fst p) (snd p)) * (A (fst p) * B (snd p))) L = again lg sf verdict.
Proof.
  intros EA EB NL FL CL. set (h := fun p : list Z * list Z => wt lg sf (fst p) * wt lg sf (snd p) * (match verdict p with Ok false => 1 | _ => 0 end)).
  assert (Ph : forall p, 0 <= h p). { intros p. unfold h. apply Rmult_le_pos; [apply Rmult_le_pos; apply wt_range, Hlg|destruct (verdict p) as [[|]| |]; lra]. }
  rewrite (P_gsum.lsum_ext _ h). 2: { intros p Hp. destruct (FL p Hp) as [Q1 Q2]. rewrite (EA _ Q1), (EB _ Q2). unfold h. rewrite rejected_verdict. ring. }
  change (again lg sf verdict) with (lsum h (pairs (sup lg))). apply Rle_antisym; apply lsum_incl; try exact pdec; try exact Ph; try exact NL; try (apply pairs_nodup, sup_nodup).
  - intros p Hp. destruct (FL p Hp) as [Q1 Q2]. destruct (in_dec zl_dec (fst p) (sup lg)) as [I|I]; [|right; unfold h; rewrite (wt_out lg sf Hlg (fst p) Q1 I); ring]. destruct (in_dec zl_dec (snd p) (sup lg)) as [J|J]; [left; apply pairs_in; split; assumption|right; unfold h; rewrite (wt_out lg sf Hlg (snd p) Q2 J); ring].
  - intros [f g] Hp. apply pairs_in in Hp. cbn [fst snd] in Hp. destruct Hp as [I J]. apply sup_len in I. apply sup_len in J. destruct (Req_dec (A f * B g) 0) as [E|E]; [right; unfold h; cbn [fst snd]; rewrite <- (EA f I), <- (EB g J), E; ring|left; apply CL; assumption].
Qed.
Lemma store F' G' m : forall i A B, (i + m <= length F')%nat -> (i + m <= length G')%nat -> (i + m <= length A)%nat -> (i + m <= length B)%nat ->
  exists r, forn m i (fun i '(F_, G_) => x <- rd F' i ;; F_ <- wr F_ i (i32 (get_si x)) ;; y <- rd G' i ;; G_ <- wr G_ i (i32 (get_si y)) ;; Ok (F_, G_)) (A, B) = Ok r.
Proof.
  induction m as [|m IH]; intros i A B H1 H2 H3 H4; cbn [forn]; [eexists; reflexivity|]. rewrite (rd_Ok F' i 0%Z) by lia. cbn [bind]. rewrite wr_Ok by lia. cbn [bind]. rewrite (rd_Ok G' i 0%Z) by lia. cbn [bind]. rewrite wr_Ok by lia. cbn [bind]. apply IH; rewrite ?upd_length; lia.
Qed.
Definition fgof (r : res (list Z * list Z * list Z * list Z * nat)) : res (list Z * list Z * nat) := match r with Ok (f, g, _, _, p) => Ok (f, g, p) | UB => UB | Fuel => Fuel end.
Lemma gen_ng rng F0 G0 : (forall i, byte (rng i)) -> length F0 = (2 ^ lg)%nat -> length G0 = (2 ^ lg)%nat -> forall m f0 g0 pos, length f0 = (2 ^ lg)%nat -> length g0 = (2 ^ lg)%nat ->
  fgof (ntru_gen F64 ztab m sf lg rng pos f0 g0 F0 G0) = ng lg sf verdict m rng pos.
Proof.
  intros Hr LF LG. induction m as [|m IH]; intros f0 g0 pos L1 L2; [reflexivity|]. cbn [ntru_gen ng]. unfold cbind at 1, pass, cbind at 1. rewrite (gen_glist F64 lg gen_to sf rng Hr pos f0 Hlg L1).
  destruct (glist F64 (fofz F64 0) (sigma_fg F64) (sigma_min F64 lg) sf (4096 / 2 ^ lg) (2 ^ lg) rng pos) as [[f p1]| |] eqn:E1; cbn [bind]; [|reflexivity|reflexivity]. unfold cbind. rewrite (gen_glist F64 lg gen_to sf rng Hr p1 g0 Hlg L2).
  destruct (glist F64 (fofz F64 0) (sigma_fg F64) (sigma_min F64 lg) sf (4096 / 2 ^ lg) (2 ^ lg) rng p1) as [[g p2]| |] eqn:E2; cbn [bind]; [|reflexivity|reflexivity]. unfold ret at 1. cbn [bind].
  assert (Lf := proj1 (glist_range lg sf _ _ _ _ _ Hr E1)). assert (Lg := proj1 (glist_range lg sf _ _ _ _ _ Hr E2)).
  unfold verdict. cbn [fst snd]. destruct (is_poly_invertible lg f) as [[|]| |]; cbn [bind negb]; [|apply IH; assumption|reflexivity|reflexivity].
  destruct (gram_schmidt_norm F64 ztab lg f g) as [v| |]; cbn [bind]; [|reflexivity|reflexivity]. destruct (fgt F64 v (gs_norm_threshold F64)); [apply IH; assumption|].
  destruct (ntru_solve F64 ztab sf lg f g) as [[[F' G']|]| |] eqn:ES; cbn [bind]; [|apply IH; assumption|reflexivity|reflexivity].
  destruct (ntru_solve_ok F64 ztab sf lg f g F' G' Lf Lg ES) as (LF' & LG' & _). destruct (store F' G' (2 ^ lg) 0 F0 G0) as [[A B] E]; [rewrite LF'; reflexivity|rewrite LG'; reflexivity|rewrite LF; reflexivity|rewrite LG; reflexivity|]. rewrite E. reflexivity.
Qed.
Lemma gen_law m f0 g0 F0 G0 f g n : length f0 = (2 ^ lg)%nat -> length g0 = (2 ^ lg)%nat -> length F0 = (2 ^ lg)%nat -> length G0 = (2 ^ lg)%nat ->
  length f = (2 ^ lg)%nat -> length g = (2 ^ lg)%nat -> (S m * (2 * (4096 * (18 * sf))) <= n)%nat ->
  prob n (fun w => keys (ntru_gen F64 ztab (S m) sf lg (stream w) 0 f0 g0 F0 G0) f g) =
  if kept F64 ztab sf lg f g then geo lg sf verdict (S m) * (prob n (fun w => yields (gen_poly F64 sf lg (stream w) 0 f0) f) * prob n (fun w => yields (gen_poly F64 sf lg (stream w) 0 g0) g)) else 0.
Proof.
  intros L1 L2 L3 L4 Lf Lg Hn.
  assert (Hn1 : (4096 * (18 * sf) <= n)%nat) by (revert Hn; generalize (4096 * (18 * sf))%nat; intros a Hn; rewrite Nat.mul_succ_l in Hn; lia).
  rewrite (gen_exact lg Hlg sf f0 f n L1 Lf Hn1), (gen_exact lg Hlg sf g0 g n L2 Lg Hn1). rewrite prob_avg.
  assert (EW : (2 ^ lg * (4096 / 2 ^ lg * (18 * sf)) = 4096 * (18 * sf))%nat) by (rewrite Nat.mul_assoc, (Nat.mul_comm (2 ^ lg)), (k_N lg Hlg); reflexivity).
  assert (K := law_prob pdec _ _ (f, g) _ n (ng_law lg sf Hlg verdict (S m) f g Lf Lg)). rewrite EW in K. specialize (K ltac:(replace (4096 * (18 * sf) + 4096 * (18 * sf))%nat with (2 * (4096 * (18 * sf)))%nat by lia; exact Hn)).
  rewrite kept_verdict in K. cbn [fst snd] in K. transitivity (geo lg sf verdict (S m) * ((if kept F64 ztab sf lg f g then 1 else 0) * (wt lg sf f * wt lg sf g))); [|destruct (kept F64 ztab sf lg f g); ring].
  rewrite <- K. apply avg_ext. intros s _ Hs. assert (E := gen_ng (stream s) F0 G0 (stream_byte s Hs) L3 L4 (S m) f0 g0 0%nat L1 L2). unfold contm. rewrite <- E.
  unfold keys, fgof. destruct (ntru_gen F64 ztab (S m) sf lg (stream s) 0 f0 g0 F0 G0) as [[[[[f' g'] ?] ?] p]| |]; [|reflexivity|reflexivity].
  destruct (pdec (f', g') (f, g)) as [Q|Q]; destruct (list_eq_dec Z.eq_dec f' f) as [Q1|Q1]; destruct (list_eq_dec Z.eq_dec g' g) as [Q2|Q2]; cbn [andb P_prob.ind]; try reflexivity; exfalso; [injection Q; contradiction|injection Q; contradiction|injection Q; contradiction|subst; contradiction].
Qed.
Notation mul s G v := (Rprod (map (gsd s G) v)).
Lemma pair_near e (A A' B B' : list Z -> R) l : 0 <= e -> (forall v, In v l -> 0 <= A v) -> (forall v, In v l -> 0 <= B v) -> (forall v, In v l -> 0 <= A' v) -> lsum A' l <= 1 -> lsum B l <= 1 ->
  lsum (fun v => Rabs (A v - A' v)) l <= e -> lsum (fun v => Rabs (B v - B' v)) l <= e ->
  lsum (fun p => Rabs (A (fst p) * B (snd p) - A' (fst p) * B' (snd p))) (pairs l) <= 2 * e.
Proof.
  intros He PA PB PA' SA SB DA DB. apply Rle_trans with (lsum (fun p => Rabs (A (fst p) - A' (fst p)) * B (snd p) + A' (fst p) * Rabs (B (snd p) - B' (snd p))) (pairs l)).
  - apply lsum_le. intros [a b] Hp. apply pairs_in in Hp. destruct Hp as [Ha Hb]. cbn [fst snd] in *. replace (A a * B b - A' a * B' b) with ((A a - A' a) * B b + A' a * (B b - B' b)) by ring. eapply Rle_trans; [apply Rabs_triang|]. rewrite !Rabs_mult, (Rabs_pos_eq (B b)), (Rabs_pos_eq (A' a)) by auto. lra.
  - rewrite lsum_plus, (lsum_pairs (fun a => Rabs (A a - A' a)) B), (lsum_pairs A' (fun b => Rabs (B b - B' b))).
    assert (Q1 : 0 <= lsum (fun v => Rabs (A v - A' v)) l) by (apply lsum_pos; intros; apply Rabs_pos). assert (Q2 : 0 <= lsum (fun v => Rabs (B v - B' v)) l) by (apply lsum_pos; intros; apply Rabs_pos). nra.
Qed.
Lemma gen_near m s G L n f0 g0 F0 G0 : s = sfg * sqrt (4096 / 2 ^ lg) -> gauss_sum s 0 G -> length f0 = (2 ^ lg)%nat -> length g0 = (2 ^ lg)%nat -> length F0 = (2 ^ lg)%nat -> length G0 = (2 ^ lg)%nat ->
  NoDup L -> Forall (fun p => length (fst p) = (2 ^ lg)%nat /\ length (snd p) = (2 ^ lg)%nat) L -> (S m * (2 * (4096 * (18 * sf))) <= n)%nat ->
  lsum (fun p => Rabs (prob n (fun w => keys (ntru_gen F64 ztab (S m) sf lg (stream w) 0 f0 g0 F0 G0) (fst p) (snd p)) -
    if kept F64 ztab sf lg (fst p) (snd p) then geo lg sf verdict (S m) * (mul s G (fst p) * mul s G (snd p)) else 0)) L <= geo lg sf verdict (S m) * (2 * (/ 2 ^ 15 + 4096 * (11 / 12) ^ sf)).
Proof.
  intros Es HG L1 L2 L3 L4 NL FL Hn. assert (Hs : 0 < s) by (rewrite Es; apply Rmult_lt_0_compat; [exact sfg_pos|apply sqrt_lt_R0; apply Rdiv_lt_0_compat; [lra|apply pow_lt; lra]]).
  assert (Gc := geo_range lg sf Hlg verdict m).
  assert (Hn1 : (4096 * (18 * sf) <= n)%nat) by (revert Hn; generalize (4096 * (18 * sf))%nat; intros a Hn; rewrite Nat.mul_succ_l in Hn; lia).
  set (l := nodup zl_dec (map fst L ++ map snd L)). assert (Nl : NoDup l) by apply NoDup_nodup.
  rewrite Forall_forall in FL. assert (Fl : Forall (fun v => length v = (2 ^ lg)%nat) l). { apply Forall_forall. intros v Hv. apply nodup_In, in_app_or in Hv. destruct Hv as [Hv|Hv]; apply in_map_iff in Hv; destruct Hv as (p & <- & Hp); apply FL, Hp. }
  set (A := fun v => prob n (fun w => yields (gen_poly F64 sf lg (stream w) 0 f0) v)). set (B := fun v => prob n (fun w => yields (gen_poly F64 sf lg (stream w) 0 g0) v)).
  assert (EA : forall v, In v l -> A v = wt lg sf v) by (intros v Hv; rewrite Forall_forall in Fl; apply (gen_exact lg Hlg sf f0 v n L1 (Fl v Hv) Hn1)).
  assert (EB : forall v, In v l -> B v = wt lg sf v) by (intros v Hv; rewrite Forall_forall in Fl; apply (gen_exact lg Hlg sf g0 v n L2 (Fl v Hv) Hn1)).
  assert (SG := gsd_sub1 s G Hs HG).
  assert (SB : lsum B l <= 1).
  { rewrite (P_gsum.lsum_ext B (wt lg sf) l EB). apply Rle_trans with (lsum (wt lg sf) (sup lg)); [|apply wt_sum, Hlg]. apply lsum_incl; [exact zl_dec|apply wt_range, Hlg|exact Nl|]. intros v Hv. rewrite Forall_forall in Fl. destruct (in_dec zl_dec v (sup lg)) as [I|I]; [left; exact I|right; apply wt_out; [exact Hlg|apply Fl, Hv|exact I]]. }
  assert (K := pair_near (/ 2 ^ 15 + 4096 * (11 / 12) ^ sf) A (fun v => mul s G v) B (fun v => mul s G v) l).
  assert (K1 : lsum (fun p => Rabs (A (fst p) * B (snd p) - mul s G (fst p) * mul s G (snd p))) (pairs l) <= 2 * (/ 2 ^ 15 + 4096 * (11 / 12) ^ sf)).
  { apply K.
    - assert (0 < / 2 ^ 15) by (apply Rinv_0_lt_compat, pow_lt; lra). assert (0 <= (11 / 12) ^ sf) by (apply pow_le; lra). lra.
    - intros v Hv. rewrite (EA v Hv). apply wt_range, Hlg.
    - intros v Hv. rewrite (EB v Hv). apply wt_range, Hlg.
    - intros v _. clear - SG. induction v as [|z v IH]; unfold Rprod in *; cbn [map fold_right]; [lra|]. apply Rmult_le_pos; [apply SG|exact IH].
    - exact (proj2 (vec_sub1 (gsd s G) (2 ^ lg) SG l Nl Fl)).
    - exact SB.
    - exact (gen_l1 lg Hlg sf s G l n f0 Es HG L1 Nl Fl Hn1).
    - exact (gen_l1 lg Hlg sf s G l n g0 Es HG L2 Nl Fl Hn1). }
  clear K. set (c := geo lg sf verdict (S m)) in *. apply Rle_trans with (c * lsum (fun p => Rabs (A (fst p) * B (snd p) - mul s G (fst p) * mul s G (snd p))) L).
  - rewrite <- P_gsum.lsum_scal. apply lsum_le. intros p Hp. destruct (FL p Hp) as [Q1 Q2]. rewrite (gen_law m f0 g0 F0 G0 (fst p) (snd p) n L1 L2 L3 L4 Q1 Q2 Hn). fold c. change (prob n (fun w => yields (gen_poly F64 sf lg (stream w) 0 f0) (fst p))) with (A (fst p)). change (prob n (fun w => yields (gen_poly F64 sf lg (stream w) 0 g0) (snd p))) with (B (snd p)).
    destruct (kept F64 ztab sf lg (fst p) (snd p)); [|rewrite Rminus_0_r, Rabs_R0; apply Rmult_le_pos; [lra|apply Rabs_pos]].
    rewrite <- Rmult_minus_distr_l, Rabs_mult, (Rabs_pos_eq c) by lra. apply Rle_refl.
  - apply Rmult_le_compat_l; [lra|]. eapply Rle_trans; [|exact K1]. apply lsum_incl; [exact pdec|intros p; apply Rabs_pos|exact NL|]. intros p Hp. left. apply pairs_in. split; apply nodup_In, in_or_app; [left|right]; apply in_map, Hp.
Qed.
End Gen.
Lemma rsum_sum m f : rsum (S m) f = sum_f_R0 f m.
Proof. induction m as [|m IH]; [cbn [rsum sum_f_R0]; ring|]. change (rsum (S (S m)) f) with (rsum (S m) f + f (S m)). rewrite IH. reflexivity. Qed.
Lemma gen_final ztab lg sf m : falcon_lg lg -> exists c, 1 <= c <= INR (S m) /\ forall f0 g0 F0 G0 n, length f0 = (2 ^ lg)%nat -> length g0 = (2 ^ lg)%nat -> length F0 = (2 ^ lg)%nat -> length G0 = (2 ^ lg)%nat -> (S m * (2 * (4096 * (18 * sf))) <= n)%nat ->
  let P f := prob n (fun w => yields (gen_poly F64 sf lg (stream w) 0 f0) f) in let P' g := prob n (fun w => yields (gen_poly F64 sf lg (stream w) 0 g0) g) in
  let K f g := prob n (fun w => keys (ntru_gen F64 ztab (S m) sf lg (stream w) 0 f0 g0 F0 G0) f g) in
  (forall f g, length f = (2 ^ lg)%nat -> length g = (2 ^ lg)%nat -> K f g = if kept F64 ztab sf lg f g then c * (P f * P' g) else 0) /\
  (forall L, NoDup L -> Forall (fun p => length (fst p) = (2 ^ lg)%nat /\ length (snd p) = (2 ^ lg)%nat) L -> (forall f g, length f = (2 ^ lg)%nat -> length g = (2 ^ lg)%nat -> P f * P' g <> 0 -> In (f, g) L) ->
    c = sum_f_R0 (fun i => lsum (fun p => if rejected F64 ztab sf lg (fst p) (snd p) then P (fst p) * P' (snd p) else 0) L ^ i) m) /\
  (forall s G L, s = val64 (sigma_fg F64) * sqrt (4096 / 2 ^ lg) -> gauss_sum s 0 G -> NoDup L -> Forall (fun p => length (fst p) = (2 ^ lg)%nat /\ length (snd p) = (2 ^ lg)%nat) L ->
    lsum (fun p => Rabs (K (fst p) (snd p) - if kept F64 ztab sf lg (fst p) (snd p) then c * (Rprod (map (fun z => rho s 0 (IZR z) / G) (fst p)) * Rprod (map (fun z => rho s 0 (IZR z) / G) (snd p))) else 0)) L <= c * (2 * (/ 2 ^ 15 + 4096 * (11 / 12) ^ sf))).
Proof.
  intros Hlg. exists (geo lg sf (verdict ztab lg sf) (S m)). split; [apply geo_range, Hlg|]. intros f0 g0 F0 G0 n L1 L2 L3 L4 Hn P P' K. split; [intros f g Lf Lg; apply gen_law; assumption|].
  assert (Hn1 : (4096 * (18 * sf) <= n)%nat) by (revert Hn; generalize (4096 * (18 * sf))%nat; intros a Hn; rewrite Nat.mul_succ_l in Hn; lia).
  split.
  - intros L NL FL CL. rewrite Forall_forall in FL. rewrite geo_sum, rsum_sum. f_equal. rewrite (P_gsum.lsum_ext _ (fun p => P_prob.ind (rejected F64 ztab sf lg (fst p) (snd p)) * (P (fst p) * P' (snd p)))) by (intros p _; destruct (rejected F64 ztab sf lg (fst p) (snd p)); unfold P_prob.ind; ring). rewrite (again_over ztab lg sf Hlg P P' L); [reflexivity| | |exact NL|exact FL|exact CL]; intros v Lv; apply gen_exact; assumption.
  - intros s G L Es HG NL FL. rewrite val_sfg in Es. exact (gen_near ztab lg sf Hlg m s G L n f0 g0 F0 G0 Es HG L1 L2 L3 L4 NL FL Hn).
Qed.
(** such a list exists *)
Lemma all_pairs lg sf n f0 g0 : falcon_lg lg -> length f0 = (2 ^ lg)%nat -> length g0 = (2 ^ lg)%nat -> (4096 * (18 * sf) <= n)%nat -> exists L, NoDup L /\ Forall (fun p => length (fst p) = (2 ^ lg)%nat /\ length (snd p) = (2 ^ lg)%nat) L /\
  forall f g, length f = (2 ^ lg)%nat -> length g = (2 ^ lg)%nat -> prob n (fun w => yields (gen_poly F64 sf lg (stream w) 0 f0) f) * prob n (fun w => yields (gen_poly F64 sf lg (stream w) 0 g0) g) <> 0 -> In (f, g) L.
Proof.
  intros Hlg L1 L2 Hn. exists (pairs (sup lg)). split; [apply pairs_nodup, sup_nodup|]. split; [apply Forall_forall; intros p Hp; apply pairs_in in Hp; split; apply sup_len, Hp|].
  intros f g Lf Lg H. rewrite (gen_exact lg Hlg sf f0 f n L1 Lf Hn), (gen_exact lg Hlg sf g0 g n L2 Lg Hn) in H. apply pairs_in. cbn [fst snd].
  split; [destruct (in_dec zl_dec f (sup lg)) as [I|I]; [exact I|exfalso; apply H; rewrite (wt_out lg sf Hlg f Lf I); ring]|destruct (in_dec zl_dec g (sup lg)) as [I|I]; [exact I|exfalso; apply H; rewrite (wt_out lg sf Hlg g Lg I); ring]].
Qed.
(** ** gen_poly against the standard deviation of the specification *)
Lemma poly_law lg : falcon_lg lg -> forall fuel s G L n poly, s = val64 (sigma_fg F64) * sqrt (4096 / 2 ^ lg) -> gauss_sum s 0 G -> length poly = (2 ^ lg)%nat -> NoDup L -> Forall (fun v => length v = (2 ^ lg)%nat) L -> (4096 * (18 * fuel) <= n)%nat ->
  lsum (fun v => Rabs (prob n (fun w => yields (gen_poly F64 fuel lg (stream w) 0 poly) v) - Rprod (map (fun z => rho s 0 (IZR z) / G) v))) L <= / 2 ^ 15 + 4096 * (11 / 12) ^ fuel.
Proof. intros Hlg fuel s G L n poly Es. rewrite val_sfg in Es. exact (gen_l1 lg Hlg fuel s G L n poly Es). Qed.
Lemma sfg_spec lg : falcon_lg lg -> Rabs (val64 (sigma_fg F64) * sqrt (4096 / 2 ^ lg) - 117 / 100 * sqrt (12289 / (2 * 2 ^ lg))) <= / 10 ^ 13.
Proof.
  intros Hlg. rewrite val_sfg. assert (P2 : 0 < 2 ^ lg) by (apply pow_lt; lra). set (r := sqrt (4096 / 2 ^ lg)). set (t := sqrt (12289 / 8192)).
  assert (E : sqrt (12289 / (2 * 2 ^ lg)) = t * r). { unfold t, r. rewrite <- sqrt_mult; [f_equal; field; lra|lra|apply Rlt_le, Rdiv_lt_0_compat; lra]. } rewrite E.
  assert (T : t * t = 12289 / 8192) by (apply sqrt_sqrt; lra). assert (T0 : 1 <= t) by (unfold t; rewrite <- sqrt_1; apply sqrt_le_1; lra).
  assert (Rr : 0 <= r <= 3). { split; [apply sqrt_pos|]. unfold r. rewrite <- (sqrt_square 3) by lra. apply sqrt_le_1; [apply Rlt_le, Rdiv_lt_0_compat; lra|lra|]. destruct Hlg as [-> | ->]; lra. }
  assert (D : Rabs (sfg - 117 / 100 * t) <= / (4 * 10 ^ 13)). { assert (Q : (sfg - 117 / 100 * t) * (sfg + 117 / 100 * t) = sfg * sfg - 13689 / 10000 * (12289 / 8192)) by (rewrite <- T; field). assert (Q' : Rabs (sfg * sfg - 13689 / 10000 * (12289 / 8192)) <= / (4 * 10 ^ 13)) by (unfold sfg; apply Rabs_le; lra).
    rewrite <- Q, Rabs_mult in Q'. assert (1 <= Rabs (sfg + 117 / 100 * t)) by (rewrite Rabs_pos_eq; unfold sfg; lra). assert (P := Rabs_pos (sfg - 117 / 100 * t)). set (x := Rabs (sfg - 117 / 100 * t)) in *. set (y := Rabs (sfg + 117 / 100 * t)) in *. nra. }
  replace (sfg * r - 117 / 100 * (t * r)) with ((sfg - 117 / 100 * t) * r) by ring. rewrite Rabs_mult, (Rabs_pos_eq r) by lra. apply Rle_trans with (/ (4 * 10 ^ 13) * 3); [apply Rmult_le_compat; [apply Rabs_pos|lra|exact D|lra]|lra].
Qed.
(** ** concrete cases *)
Lemma sfg_sum lg : falcon_lg lg -> exists G, gauss_sum (val64 (sigma_fg F64) * sqrt (4096 / 2 ^ lg)) 0 G.
Proof.
  intros Hlg. rewrite val_sfg. assert (P2 : 0 < 2 ^ lg) by (apply pow_lt; lra). destruct (kfg_has (2 ^ lg / 4096) ltac:(destruct Hlg as [-> | ->]; lra) 0) as [G HG]. exists G. apply th_gauss; [apply Rmult_lt_0_compat; [exact sfg_pos|apply sqrt_lt_R0, Rdiv_lt_0_compat; lra]|].
  replace (/ (2 * (sfg * sqrt (4096 / 2 ^ lg)) ^ 2)) with (2 ^ lg / 4096 * kfg); [exact HG|]. rewrite Rpow_mult_distr, pow2_sqrt by (apply Rlt_le, Rdiv_lt_0_compat; lra). unfold kfg. assert (S0 := sfg_pos). field. lra.
Qed.
Lemma poly_sat : exists s G L, s = val64 (sigma_fg F64) * sqrt (4096 / 2 ^ 9) /\ gauss_sum s 0 G /\ L = [repeat 0%Z 512; 1%Z :: repeat 0%Z 511] /\ NoDup L /\ Forall (fun v => length v = (2 ^ 9)%nat) L.
Proof.
  destruct (sfg_sum 9 (or_introl eq_refl)) as [G HG]. do 3 eexists. split; [reflexivity|]. split; [exact HG|]. split; [reflexivity|]. split; [|repeat (apply Forall_cons; [cbn [length]; rewrite ?repeat_length; reflexivity|]); apply Forall_nil].
  constructor; [intros [H|[]]; discriminate H|constructor; [intros []|constructor]].
Qed.
Lemma pair_sat : exists s G L, s = val64 (sigma_fg F64) * sqrt (4096 / 2 ^ 9) /\ gauss_sum s 0 G /\ L = [(repeat 0%Z 512, repeat 0%Z 512); (1%Z :: repeat 0%Z 511, repeat 0%Z 512)] /\ NoDup L /\
  Forall (fun p => length (fst p) = (2 ^ 9)%nat /\ length (snd p) = (2 ^ 9)%nat) L.
Proof.
  destruct (sfg_sum 9 (or_introl eq_refl)) as [G HG]. do 3 eexists. split; [reflexivity|]. split; [exact HG|]. split; [reflexivity|]. split; [|repeat (apply Forall_cons; [cbn [length fst snd]; rewrite ?repeat_length; split; reflexivity|]); apply Forall_nil].
  constructor; [intros [H|[]]; discriminate H|constructor; [intros []|constructor]].
Qed.
Lemma kept_sat : kept F64 (source_table F64) 40 2 [1; 0; 0; 0]%Z [100; 0; 0; 0]%Z = true.
Proof. lazy; reflexivity. Qed.
