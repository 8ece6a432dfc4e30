(** P_sim.v -- hash and signature vector together: the law of the pair is that of a Gaussian vector and its own hash, which needs no secret key. *)
From Verif Require Import Base Ring Poly Spec SpecR SpecS SpecG SpecJ SpecH SpecM M_ff M_ntt M_sig M_verify M_float M_exact M_samp M_fft M_ntru M_tree P_ntt P_prob P_gsum P_jgauss P_jcoset P_hash.
From Verif Require P_gs P_treex P_sign.
From Coq Require Import Lra.
Open Scope R_scope.

(** ** sums over sets *)
Lemma total_iff {X} (d d' : X -> Prop) f W : (forall x, d x <-> d' x) -> total d f W -> total d' f W.
Proof.
  intros E H. split.
  - intros r (L & NL & DL & ->). apply (total_le d); [exact H|exact NL|]. eapply Forall_impl; [|exact DL]. intros x. apply E.
  - intros b Hb. apply (total_ub d f W b H). intros L NL DL. apply Hb. exists L. split; [exact NL|]. split; [|reflexivity]. eapply Forall_impl; [|exact DL]. intros x. apply E.
Qed.
Lemma total_none {X} (d : X -> Prop) f : (forall x, ~ d x) -> total d f 0.
Proof.
  intros E. split.
  - intros r (L & _ & DL & ->). destruct L as [|x L]; [cbn; lra|]. exfalso. apply (E x). apply (Forall_inv DL).
  - intros b Hb. apply Hb. exists []. split; [constructor|]. split; [constructor|reflexivity].
Qed.
Lemma lsum_part {X} (t : X -> bool) f L : lsum f L = lsum f (filter t L) + lsum f (filter (fun x => negb (t x)) L).
Proof. induction L as [|x L IH]; cbn [filter]; [cbn; lra|]. destruct (t x); cbn [negb lsum fold_right]; unfold lsum in *; cbn [fold_right]; lra. Qed.
Lemma total_union {X} (d1 d2 : X -> Prop) (t : X -> bool) f W1 W2 : (forall x, d1 x -> t x = true) -> (forall x, d2 x -> t x = false) ->
  total d1 f W1 -> total d2 f W2 -> total (fun x => d1 x \/ d2 x) f (W1 + W2).
Proof.
  intros E1 E2 H1 H2. split.
  - intros r (L & NL & DL & ->). fold (lsum f L). rewrite (lsum_part t). rewrite Forall_forall in DL. apply Rplus_le_compat.
    + apply (total_le d1); [exact H1|apply NoDup_filter; exact NL|]. apply Forall_forall. intros x Hx. apply filter_In in Hx. destruct Hx as [Hx Tx]. destruct (DL x Hx) as [D|D]; [exact D|]. rewrite (E2 x D) in Tx. discriminate.
    + apply (total_le d2); [exact H2|apply NoDup_filter; exact NL|]. apply Forall_forall. intros x Hx. apply filter_In in Hx. destruct Hx as [Hx Tx]. destruct (DL x Hx) as [D|D]; [|exact D]. rewrite (E1 x D) in Tx. discriminate.
  - intros b Hb. assert (X2 : W2 <= b - W1); [|lra]. apply (total_ub d2 f W2 _ H2). intros L2 N2 D2. assert (X1 : W1 <= b - lsum f L2); [|lra].
    apply (total_ub d1 f W1 _ H1). intros L1 N1 D1. assert (Y : lsum f (L1 ++ L2) <= b); [|rewrite lsum_app in Y; lra].
    apply Hb. exists (L1 ++ L2). rewrite Forall_forall in D1, D2. split; [|split; [|reflexivity]].
    + apply NoDup_app; try assumption. intros x I1 I2. assert (A := E1 x (D1 x I1)). rewrite (E2 x (D2 x I2)) in A. discriminate.
    + apply Forall_forall. intros x Hx. apply in_app_iff in Hx. destruct Hx as [Hx|Hx]; [left; apply D1|right; apply D2]; exact Hx.
Qed.
Section Keys.
Context {X K : Type}.
Variable dec : forall a b : K, {a = b} + {a <> b}.
Variable key : X -> K.
Lemma total_keys (d : X -> Prop) f (W : K -> R) C : NoDup C -> (forall c, In c C -> total (fun x => d x /\ key x = c) f (W c)) -> total (fun x => d x /\ In (key x) C) f (lsum W C).
Proof.
  induction 1 as [|c C Hc NC IH]; intros H; [apply total_none; intros x [_ []]|].
  change (lsum W (c :: C)) with (W c + lsum W C).
  apply (total_iff (fun x => (d x /\ key x = c) \/ (d x /\ In (key x) C))).
  - intros x. cbn [In]. intuition.
  - apply (total_union _ _ (fun x => if dec (key x) c then true else false)).
    + intros x [_ E]. destruct (dec (key x) c); [reflexivity|contradiction].
    + intros x [_ E]. destruct (dec (key x) c) as [e|]; [|reflexivity]. rewrite e in E. contradiction.
    + apply H. left. reflexivity.
    + apply IH. intros c' Hc'. apply H. right. exact Hc'.
Qed.
Definition at_key (c : K) (L : list X) : list X := filter (fun x => if dec (key x) c then true else false) L.
Lemma lsum_keys f C L : NoDup C -> (forall x, In x L -> In (key x) C) -> lsum f L = lsum (fun c => lsum f (at_key c L)) C.
Proof.
  intros NC. revert L. induction NC as [|c C Hc NC IH]; intros L HL.
  - destruct L as [|x L]; [reflexivity|]. destruct (HL x (or_introl eq_refl)).
  - change (lsum (fun c => lsum f (at_key c L)) (c :: C)) with (lsum f (at_key c L) + lsum (fun c => lsum f (at_key c L)) C).
    rewrite (lsum_part (fun x => if dec (key x) c then true else false)). fold (at_key c L). f_equal. rewrite IH.
    + apply lsum_ext. intros c' Hc'. f_equal. unfold at_key. clear - Hc Hc'. induction L as [|x L IH]; [reflexivity|]. cbn [filter]. destruct (dec (key x) c) as [e|n]; cbn [negb filter].
      * destruct (dec (key x) c') as [e'|n']; [|exact IH]. exfalso. apply Hc. rewrite <- e, e'. exact Hc'.
      * destruct (dec (key x) c'); [f_equal|]; exact IH.
    + intros x Hx. apply filter_In in Hx. destruct Hx as [Hx Tx]. destruct (HL x Hx) as [E|E]; [|exact E]. destruct (dec (key x) c) as [|n]; [discriminate|]. symmetry in E. contradiction.
Qed.
End Keys.
Lemma choose {A} (dec : forall a b : A, {a = b} + {a <> b}) (P : A -> R -> Prop) C : (forall c, In c C -> exists w, P c w) -> exists W, forall c, In c C -> P c (W c).
Proof.
  induction C as [|c C IH]; intros H; [exists (fun _ => 0); intros c []|]. destruct (H c (or_introl eq_refl)) as [w Hw]. destruct IH as [W HW]; [intros c' Hc'; apply H; right; exact Hc'|].
  exists (fun c' => if dec c' c then w else W c'). intros c' [->|Hc']; [destruct (dec c' c'); [exact Hw|contradiction]|]. destruct (dec c' c) as [->|]; [exact Hw|apply HW; exact Hc'].
Qed.

(** ** all polynomials modulo q *)
Fixpoint polys (n : nat) : list (list Z) := match n with O => [[]] | S m => flat_map (fun x => map (cons (Z.of_nat x)) (polys m)) (seq 0 (Z.to_nat q)) end.
Lemma polys_in n c : In c (polys n) <-> length c = n /\ Forall canon c.
Proof.
  revert c. induction n as [|n IH]; intros c; cbn [polys].
  - split; [intros [<-|[]]; split; [reflexivity|constructor]|]. intros [L _]. left. destruct c; [reflexivity|discriminate].
  - rewrite in_flat_map. split.
    + intros (x & Hx & Hc). apply in_seq in Hx. apply in_map_iff in Hc. destruct Hc as (c' & <- & Hc'). apply IH in Hc'. destruct Hc' as [L F]. split; [cbn; lia|]. constructor; [|exact F]. unfold canon, q in *. lia.
    + intros [L F]. destruct c as [|y c]; [discriminate|]. assert (Y := Forall_inv F). unfold canon, q in Y. exists (Z.to_nat y). split; [apply in_seq; unfold q; lia|]. rewrite Z2Nat.id by lia. apply in_map. apply IH.
      split; [cbn in L; lia|apply (Forall_inv_tail F)].
Qed.
Lemma nodup_flat {A B} (g : A -> list B) l : NoDup l -> (forall x, In x l -> NoDup (g x)) -> (forall x y b, In x l -> In y l -> In b (g x) -> In b (g y) -> x = y) -> NoDup (flat_map g l).
Proof.
  induction 1 as [|x l Hx NL IH]; intros H1 H2; [constructor|]. cbn [flat_map]. apply NoDup_app.
  - apply H1. left. reflexivity.
  - apply IH; [intros y Hy; apply H1; right; exact Hy|]. intros y z b Hy Hz. apply H2; right; assumption.
  - intros b Hb Hb'. apply in_flat_map in Hb'. destruct Hb' as (y & Hy & Hby). apply Hx. rewrite (H2 x y b (or_introl eq_refl) (or_intror Hy) Hb Hby). exact Hy.
Qed.
Lemma polys_nodup n : NoDup (polys n).
Proof.
  induction n as [|n IH]; cbn [polys]; [constructor; [intros []|constructor]|]. apply nodup_flat; [apply seq_NoDup| |].
  - intros x _. clear - IH. induction IH as [|c l Hc NL IH]; [constructor|]. cbn [map]. constructor; [|exact IH]. intros H. apply in_map_iff in H. destruct H as (c' & E & Hc'). injection E as ->. contradiction.
  - intros x y b _ _ Hx Hy. apply in_map_iff in Hx, Hy. destruct Hx as (c & <- & _). destruct Hy as (c' & E & _). injection E as E _. lia.
Qed.
Lemma polys_const n a : lsum (fun _ => a) (polys n) = 12289 ^ n * a.
Proof.
  induction n as [|n IH]; [cbn; lra|]. cbn [polys pow]. rewrite lsum_flat.
  rewrite (lsum_ext _ (fun _ => 12289 ^ n * a)) by (intros x _; rewrite lsum_map; exact IH).
  assert (E : forall l : list nat, lsum (fun _ => 12289 ^ n * a) l = INR (length l) * (12289 ^ n * a)).
  { intros l. induction l as [|x l IHl]; [cbn; lra|]. change (length (x :: l)) with (S (length l)). rewrite S_INR. unfold lsum in *. cbn [fold_right]. rewrite IHl. ring. }
  rewrite E, seq_length. rewrite INR_IZR_INZ, Z2Nat.id by (unfold q; lia). unfold q. ring.
Qed.

(** ** the hash of a vector *)
Definition hkey (lg : nat) (h : list Z) (s : list Z * list Z) : list Z := tab (2 ^ lg) (fun i => ((nth i (fst s) 0 + nth i (negacyclic (2 ^ lg) (snd s) h) 0) mod q)%Z).
Notation pairN lg := (fun s : list Z * list Z => length (fst s) = (2 ^ lg)%nat /\ length (snd s) = (2 ^ lg)%nat).
Lemma coset_key lg c h s : length c = (2 ^ lg)%nat -> Forall canon c -> (coset lg c h s <-> pairN lg s /\ hkey lg h s = c).
Proof.
  intros Lc Hc. unfold coset. split.
  - intros (L1 & L2 & E). split; [split; assumption|]. apply (list_ext 0%Z); [unfold hkey; rewrite tab_length; lia|]. unfold hkey. rewrite tab_length. intros i Hi. rewrite nth_tab by exact Hi.
    assert (Ei := f_equal (fun l => nth i l 0%Z) E). cbv beta in Ei. unfold s1_residues in Ei. rewrite nth_tab in Ei by exact Hi. unfold modq in Ei.
    rewrite (nth_indep _ 0%Z (0 mod q)%Z) in Ei by (rewrite map_length; lia). rewrite (map_nth (fun x => x mod q)%Z) in Ei.
    assert (Ci := Forall_nth_lt _ c 0%Z i Hc ltac:(lia)). unfold canon in Ci.
    rewrite Zplus_mod, Ei, <- Zplus_mod. replace (nth i c 0 - nth i (negacyclic (2 ^ lg) (snd s) h) 0 + nth i (negacyclic (2 ^ lg) (snd s) h) 0)%Z with (nth i c 0%Z) by lia. apply Z.mod_small. exact Ci.
  - intros ([L1 L2] & E). split; [exact L1|]. split; [exact L2|]. apply (list_ext 0%Z); [rewrite modq_length; unfold s1_residues; rewrite tab_length; exact L1|]. rewrite modq_length. intros i Hi. rewrite L1 in Hi.
    unfold s1_residues. rewrite nth_tab by exact Hi. unfold modq. rewrite (nth_indep _ 0%Z (0 mod q)%Z) by (rewrite map_length; lia). rewrite (map_nth (fun x => x mod q)%Z).
    rewrite <- E. unfold hkey. rewrite nth_tab by exact Hi. rewrite Zminus_mod_idemp_l. f_equal. lia.
Qed.

Section Back.
Context {X Y : Type}.
Variables (dx : X -> Prop) (dy : Y -> Prop) (phi : X -> Y).
Hypothesis Hin : forall x, dx x -> dy (phi x).
Hypothesis Hinj : forall x x', dx x -> dx x' -> phi x = phi x' -> x = x'.
Hypothesis Hsur : forall y, dy y -> exists x, dx x /\ phi x = y.
Lemma back_total (g : Y -> R) W : total dy g W -> total dx (fun x => g (phi x)) W.
Proof.
  intros T. split.
  - intros r (K & NK & DK & ->). fold (lsum (fun x => g (phi x)) K). rewrite <- (lsum_map g phi). apply (total_le dy); [exact T|apply (move_nodup dx phi Hinj); assumption|].
    rewrite Forall_forall in *. intros y Hy. apply in_map_iff in Hy. destruct Hy as (x & <- & Hx). apply Hin, DK, Hx.
  - intros b Hb. apply (total_ub dy g W b T). intros L NL DL. destruct (move_list dx dy phi Hsur L NL DL) as (K & NK & DK & <-). rewrite lsum_map. apply Hb. exists K. auto.
Qed.
End Back.
Notation wts lg s := (exp (- (IZR (sqnorm (fst s) + sqnorm (snd s)) / (2 * (sigma_value RF lg * sigma_value RF lg))))).
Definition eps (lg : nat) : R := INR (2 * 2 ^ lg) * / 2 ^ 34.

Lemma key_mass lg (Hlg : falcon_lg lg) f g F_ G_ h0 h : sound_key lg f g F_ G_ -> length h0 = (2 ^ lg)%nat -> compute_public_key lg f g h0 = Ok h ->
  forall c c' W W', length c = (2 ^ lg)%nat -> Forall canon c -> length c' = (2 ^ lg)%nat -> Forall canon c' ->
  total (coset lg c h) (fun s => wts lg s) W -> total (coset lg c' h) (fun s => wts lg s) W' -> W <= W' * (1 + eps lg).
Proof.
  intros (Lf & Lg & LF & LG & HN & HGS & Hsm & BF & BG & Sf & Sg & HI) Lh HK c c' W W' Lc Hc Lc' Hc' T T'.
  assert (Q : forall c W, length c = (2 ^ lg)%nat -> total (coset lg c h) (fun s => wts lg s) W ->
     total (pairN lg) (fun a => let s := (psub (2 ^ lg) (psub (2 ^ lg) c (negacyclic (2 ^ lg) (fst a) g)) (negacyclic (2 ^ lg) (snd a) G_), padd (2 ^ lg) (negacyclic (2 ^ lg) (fst a) f) (negacyclic (2 ^ lg) (snd a) F_)) in wts lg s) W).
  { clear c c' W W' Lc Hc Lc' Hc' T T'. intros c W Lc TW.
    refine (back_total (pairN lg) (coset lg c h) (fun a => (psub (2 ^ lg) (psub (2 ^ lg) c (negacyclic (2 ^ lg) (fst a) g)) (negacyclic (2 ^ lg) (snd a) G_), padd (2 ^ lg) (negacyclic (2 ^ lg) (fst a) f) (negacyclic (2 ^ lg) (snd a) F_))) _ _ _ (fun s => wts lg s) W TW).
    - intros a Ha. exact (vec_in lg Hlg f g F_ G_ Lf Lg LF LG HN Sf Sg HI h0 h Lh HK c a Lc Ha).
    - intros a b Ha Hb. exact (vec_inj lg f g F_ G_ HN c a b Lc Ha Hb).
    - intros s Hs. exact (vec_sur lg Hlg f g F_ G_ Lf Lg HN Sf Sg HI h0 h Lh HK c s Lc Hs). }
  apply (mass_any lg Hlg f g F_ G_ Lf Lg LF LG HN HGS Hsm BF BG c c' W W' Lc Hc Lc' Hc' (Q c W Lc T) (Q c' W' Lc' T')).
Qed.

Lemma sound_data lg (Hlg : falcon_lg lg) f g F_ G_ c : sound_key lg f g F_ G_ -> length c = (2 ^ lg)%nat ->
  exists B T0 T t0 t1, ((lg + 1) * 2 ^ lg <= length T0)%nat /\ compute_matrix_B RF exact_table lg f g F_ G_ = Ok B /\ compute_falcon_tree RF exact_table lg B T0 = Ok T /\ sign_target RF exact_table lg B c = Ok (t0, t1).
Proof.
  intros (Lf & Lg & LF & LG & HN & _) Lc. assert (lg1 : (1 <= lg <= 10)%nat) by (destruct Hlg as [->| ->]; lia).
  set (T0 := repeat Czero ((lg + 1) * 2 ^ lg)). assert (LT : ((lg + 1) * 2 ^ lg <= length T0)%nat) by (unfold T0; rewrite repeat_length; lia).
  destruct (P_gs.tree_ok lg f g F_ G_ T0 lg1 Lf Lg LF LG HN LT) as [T [E _]].
  do 5 eexists. split; [exact LT|]. split; [exact (P_treex.matrix_B_ok lg (proj2 lg1) f g F_ G_ Lf Lg LF LG)|]. split; [exact E|]. exact (P_sign.target_ok lg (proj2 lg1) f g F_ G_ c Lc).
Qed.

(** the sum of the weights of all vectors, against that of one coset *)
Lemma all_mass lg (Hlg : falcon_lg lg) f g F_ G_ h0 h : sound_key lg f g F_ G_ -> length h0 = (2 ^ lg)%nat -> compute_public_key lg f g h0 = Ok h ->
  exists WT, 0 < WT /\ total (pairN lg) (fun s => wts lg s) WT /\
    forall c W, length c = (2 ^ lg)%nat -> Forall canon c -> total (coset lg c h) (fun s => wts lg s) W -> 0 < W -> Rabs (W / WT - / 12289 ^ 2 ^ lg) <= eps lg * / 12289 ^ 2 ^ lg.
Proof.
  intros HS Lh HK.
  assert (EX : forall c, In c (polys (2 ^ lg)) -> exists W, 0 < W /\ total (coset lg c h) (fun s => wts lg s) W).
  { intros c Hc. apply polys_in in Hc. destruct Hc as [Lc Cc]. destruct (sound_data lg Hlg f g F_ G_ c HS Lc) as (B & T0 & T & t0 & t1 & LT & HB & HT & Ht).
    destruct (key_gauss lg Hlg f g F_ G_ h0 h B T0 T c t0 t1 HS Lh HK LT HB HT Lc Cc Ht) as (W & W0 & TW & _). exists W. split; assumption. }
  destruct (choose (list_eq_dec Z.eq_dec) _ _ EX) as [W HW]. exists (lsum W (polys (2 ^ lg))).
  set (D := 12289 ^ 2 ^ lg). assert (HD : 0 < D) by (apply pow_lt; lra).
  assert (E0 : 0 <= eps lg) by (unfold eps; apply Rmult_le_pos; [apply pos_INR|left; apply Rinv_0_lt_compat, pow_lt; lra]).
  assert (BND : forall c w, length c = (2 ^ lg)%nat -> Forall canon c -> total (coset lg c h) (fun s => wts lg s) w -> 0 < w -> w * D <= lsum W (polys (2 ^ lg)) * (1 + eps lg) /\ lsum W (polys (2 ^ lg)) <= w * D * (1 + eps lg)).
  { intros c w Lc Cc Tw w0. split.
    - rewrite Rmult_comm. unfold D. rewrite <- polys_const. rewrite (Rmult_comm (lsum W _)), <- lsum_scal. apply lsum_le. intros c' Hc'. destruct (HW c' Hc') as [_ T']. apply polys_in in Hc'. destruct Hc' as [L' C'].
      rewrite Rmult_comm. apply (key_mass lg Hlg f g F_ G_ h0 h HS Lh HK c c'); assumption.
    - replace (w * D * (1 + eps lg)) with (D * (w * (1 + eps lg))) by ring. unfold D. rewrite <- polys_const. apply lsum_le. intros c' Hc'. destruct (HW c' Hc') as [_ T']. apply polys_in in Hc'. destruct Hc' as [L' C'].
      apply (key_mass lg Hlg f g F_ G_ h0 h HS Lh HK c' c); assumption. }
  assert (WT0 : 0 < lsum W (polys (2 ^ lg))).
  { assert (Hin : In (repeat 0%Z (2 ^ lg)) (polys (2 ^ lg))). { apply polys_in. split; [apply repeat_length|]. apply Forall_forall. intros x Hx. apply repeat_spec in Hx. subst x. unfold canon, q. lia. }
    destruct (HW _ Hin) as [w0 Tw]. apply polys_in in Hin. destruct Hin as [L C]. destruct (BND _ _ L C Tw w0) as [B1 _].
    assert (0 < W (repeat 0%Z (2 ^ lg)) * D) by (apply Rmult_lt_0_compat; assumption). apply (Rmult_lt_reg_r (1 + eps lg)); [lra|]. rewrite Rmult_0_l. lra. }
  split; [exact WT0|]. split.
  - apply (total_iff (fun x => pairN lg x /\ In (hkey lg h x) (polys (2 ^ lg)))).
    + intros s. split; [intros [H _]; exact H|]. intros H. split; [exact H|]. apply polys_in. split; [apply tab_length|]. apply Forall_forall. intros x Hx. unfold hkey, tab in Hx. apply in_map_iff in Hx. destruct Hx as (i & <- & _). unfold canon. apply Z.mod_pos_bound. unfold q. lia.
    + apply (total_keys (list_eq_dec Z.eq_dec) (hkey lg h)); [apply polys_nodup|]. intros c Hc. destruct (HW c Hc) as [_ T']. apply polys_in in Hc. destruct Hc as [L' C'].
      apply (total_iff (coset lg c h)); [|exact T']. intros s. apply coset_key; assumption.
  - intros c w Lc Cc Tw w0. destruct (BND c w Lc Cc Tw w0) as [B1 B2]. set (S := lsum W (polys (2 ^ lg))) in *.
    apply Rabs_le. assert (I : 0 < / D) by (apply Rinv_0_lt_compat; exact HD). split.
    + apply (Rmult_le_reg_r (S * D)); [apply Rmult_lt_0_compat; assumption|]. replace ((w / S - / D) * (S * D)) with (w * D - S) by (field; lra). replace (- (eps lg * / D) * (S * D)) with (- (eps lg * S)) by (field; lra).
      destruct (Rle_dec (w * D) S) as [l|nl]; [|assert (0 <= eps lg * S) by (apply Rmult_le_pos; lra); lra].
      assert (eps lg * (w * D) <= eps lg * S) by (apply Rmult_le_compat_l; assumption). lra.
    + apply (Rmult_le_reg_r (S * D)); [apply Rmult_lt_0_compat; assumption|]. replace ((w / S - / D) * (S * D)) with (w * D - S) by (field; lra). replace (eps lg * / D * (S * D)) with (eps lg * S) by (field; lra). lra.
Qed.

Lemma prob_split n m (P Q : list Z -> bool) : prob (n + m) (fun v => P (firstn n v) && Q (skipn n v)) = prob n P * prob m Q.
Proof.
  rewrite !prob_avg, avg_split. rewrite (avg_ext n _ (fun u => avg m (fun s => P_prob.ind (Q s)) * P_prob.ind (P u))).
  - rewrite avg_scal. ring.
  - intros u Lu _. rewrite Rmult_comm, <- avg_scal. apply avg_ext. intros s _ _. rewrite firstn_app, skipn_app, Lu, Nat.sub_diag, firstn_O, app_nil_r. cbn [skipn].
    rewrite firstn_all2 by lia. rewrite (skipn_all2 u) by lia. cbn [app]. destruct (P u), (Q s); cbn; lra.
Qed.
Lemma prob_range n P : 0 <= prob n P <= 1.
Proof.
  rewrite prob_avg. revert P. induction n as [|n IH]; intros P; cbn [avg]; [destruct (P []); cbn; lra|].
  assert (H : 0 <= rsum 256 (fun b => avg n (fun s => P_prob.ind (P (Z.of_nat b :: s)))) <= 256); [|lra].
  assert (G : forall m, 0 <= rsum m (fun b => avg n (fun s => P_prob.ind (P (Z.of_nat b :: s)))) <= INR m).
  { induction m as [|m IHm]; [cbn; lra|]. cbn [rsum]. rewrite S_INR. specialize (IH (fun s => P (Z.of_nat m :: s))). cbv beta in IH. lra. }
  specialize (G 256%nat). replace (INR 256) with 256 in G by (simpl; lra). exact G.
Qed.
Lemma in_at_key {X K} (dec : forall a b : K, {a = b} + {a <> b}) (key : X -> K) c L x : In x (at_key dec key c L) -> In x L /\ key x = c.
Proof. intros H. apply filter_In in H. destruct H as [H E]. split; [exact H|]. destruct (dec (key x) c); [assumption|discriminate]. Qed.
Lemma sub_bound (PE D x w W WT e : R) : 0 < D -> 0 < W -> 0 < WT -> 0 <= w -> 0 <= PE <= 1 -> Rabs (W / WT - / D) <= e * / D ->
  Rabs (PE / D * x - w / WT) <= / D * (Rabs (x - w / W) + (1 - PE + e) * (w / W)).
Proof.
  intros HD HW HT Hw HP He. assert (I : 0 < / D) by (apply Rinv_0_lt_compat; exact HD). assert (J : 0 <= w / W) by (apply Rmult_le_pos; [exact Hw|left; apply Rinv_0_lt_compat; exact HW]).
  replace (PE / D * x - w / WT) with (PE * / D * (x - w / W) + (- ((1 - PE) * / D * (w / W)) + - ((W / WT - / D) * (w / W)))) by (field; lra).
  eapply Rle_trans; [apply Rabs_triang|]. eapply Rle_trans; [apply Rplus_le_compat_l, Rabs_triang|]. rewrite !Rabs_Ropp, !Rabs_mult.
  rewrite (Rabs_pos_eq PE) by lra. rewrite (Rabs_pos_eq (/ D)) by lra. rewrite (Rabs_pos_eq (w / W)) by exact J. rewrite (Rabs_pos_eq (1 - PE)) by lra.
  assert (A1 : PE * / D * Rabs (x - w / W) <= / D * Rabs (x - w / W)). { assert (0 <= / D * Rabs (x - w / W)) by (apply Rmult_le_pos; [lra|apply Rabs_pos]). replace (PE * / D * Rabs (x - w / W)) with (PE * (/ D * Rabs (x - w / W))) by ring. rewrite <- (Rmult_1_l (/ D * Rabs (x - w / W))) at 2. apply Rmult_le_compat_r; lra. }
  assert (A2 : Rabs (W / WT - / D) * (w / W) <= e * / D * (w / W)) by (apply Rmult_le_compat_r; assumption).
  replace (/ D * (Rabs (x - w / W) + (1 - PE + e) * (w / W))) with (/ D * Rabs (x - w / W) + ((1 - PE) * / D * (w / W) + e * / D * (w / W))) by ring. lra.
Qed.

Theorem simulation lg (Hlg : falcon_lg lg) f g F_ G_ h0 h B T0 T : sound_key lg f g F_ G_ -> length h0 = (2 ^ lg)%nat -> compute_public_key lg f g h0 = Ok h ->
  ((lg + 1) * 2 ^ lg <= length T0)%nat -> compute_matrix_B RF exact_table lg f g F_ G_ = Ok B -> compute_falcon_tree RF exact_table lg B T0 = Ok T ->
  exists WT, 0 < WT /\ total (pairN lg) (fun s => wts lg s) WT /\
    forall salt msg poly j k n L, length poly = (2 ^ lg)%nat -> (36 * k * 2 ^ lg <= n)%nat -> NoDup L ->
      Forall (fun p => length (fst p) = (2 ^ lg)%nat /\ Forall canon (fst p) /\ coset lg (fst p) h (snd p)) L ->
      lsum (fun p => Rabs (prob (136 * j + n) (fun v => hashes_to (hash_to_point j (fun _ => stream (firstn (136 * j) v)) lg salt msg poly) (fst p) && pass_draws lg B T k (fst p) (skipn (136 * j) v) (snd p)) - wts lg (snd p) / WT)) L
        <= INR (2 * 2 ^ lg) * (2 / 2 ^ 34 + (11 / 12) ^ k) + 16 ^ 2 ^ lg / 8 ^ (68 * j).
Proof.
  intros HS Lh HK LT HB HT. destruct (all_mass lg Hlg f g F_ G_ h0 h HS Lh HK) as (WT & WT0 & TWT & HM). exists WT. split; [exact WT0|]. split; [exact TWT|].
  intros salt msg poly j k n L Lp Hn NL DL. set (D := 12289 ^ 2 ^ lg) in *. assert (HD : 0 < D) by (apply pow_lt; lra). assert (ID : 0 < / D) by (apply Rinv_0_lt_compat; exact HD).
  set (PE := prob (136 * j) (fun w => done (hash_to_point j (fun _ => stream w) lg salt msg poly))).
  assert (HPE : 0 <= PE <= 1) by apply prob_range.
  assert (LPE : 1 - PE <= 16 ^ 2 ^ lg / 8 ^ (68 * j)).
  { destruct (hash_law lg salt msg poly j (repeat 0%Z (2 ^ lg)) Lp (repeat_length _ _)) as [_ X]; [|fold PE in X; lra]. apply Forall_forall. intros x Hx. apply repeat_spec in Hx. subst x. unfold canon, q. lia. }
  assert (E0 : 0 <= eps lg) by (unfold eps; apply Rmult_le_pos; [apply pos_INR|left; apply Rinv_0_lt_compat, pow_lt; lra]).
  set (bb := INR (2 * 2 ^ lg) * (/ 2 ^ 34 + (11 / 12) ^ k)).
  rewrite Forall_forall in DL.
  rewrite (lsum_keys (list_eq_dec Z.eq_dec) fst _ (polys (2 ^ lg)) L (polys_nodup _)) by (intros p Hp; apply polys_in; destruct (DL p Hp) as (A1 & A2 & _); split; assumption).
  apply Rle_trans with (lsum (fun _ => / D * (bb + (1 - PE + eps lg))) (polys (2 ^ lg))).
  2:{ rewrite polys_const. fold D. replace (D * (/ D * (bb + (1 - PE + eps lg)))) with (bb + (1 - PE + eps lg)) by (field; lra).
      replace (INR (2 * 2 ^ lg) * (2 / 2 ^ 34 + (11 / 12) ^ k)) with (bb + eps lg); [lra|]. unfold bb, eps. field. }
  apply lsum_le. intros c Hc. apply polys_in in Hc. destruct Hc as [Lc Cc].
  destruct (sound_data lg Hlg f g F_ G_ c HS Lc) as (B' & T0' & T' & t0 & t1 & _ & HB' & _ & Ht). assert (B' = B) by congruence. subst B'.
  destruct (key_gauss lg Hlg f g F_ G_ h0 h B T0 T c t0 t1 HS Lh HK LT HB HT Lc Cc Ht) as (W & W0 & TW & TV).
  destruct (hash_law lg salt msg poly j c Lp Lc Cc) as [HL _]. fold PE in HL.
  set (K := map snd (at_key (list_eq_dec Z.eq_dec) fst c L)).
  assert (AK : forall p, In p (at_key (list_eq_dec Z.eq_dec) fst c L) -> In p L /\ fst p = c) by (intros p; apply in_at_key).
  assert (NK : NoDup K).
  { unfold K. assert (NA : NoDup (at_key (list_eq_dec Z.eq_dec) fst c L)) by (apply NoDup_filter; exact NL). clear - NA AK. induction NA as [|p l Hp NA IH]; [constructor|]. cbn [map]. constructor.
    - intros X. apply in_map_iff in X. destruct X as (p' & E & Hp'). apply Hp. destruct (AK p (or_introl eq_refl)) as [_ E1]. destruct (AK p' (or_intror Hp')) as [_ E2].
      replace p with p'; [exact Hp'|]. destruct p, p'. cbn in *. subst. reflexivity.
    - apply IH. intros p' Hp'. apply AK. right. exact Hp'. }
  assert (DK : Forall (coset lg c h) K). { apply Forall_forall. intros s X. apply in_map_iff in X. destruct X as (p & <- & Hp). destruct (AK p Hp) as [Hp' <-]. apply (DL p Hp'). }
  specialize (TV k n K Hn NK DK). specialize (HM c W Lc Cc TW W0).
  assert (SW : lsum (fun s => wts lg s / W) K <= 1).
  { unfold Rdiv. rewrite (lsum_ext _ (fun s => / W * wts lg s)) by (intros; apply Rmult_comm). rewrite lsum_scal. apply (Rmult_le_reg_l W); [exact W0|]. rewrite <- Rmult_assoc, Rinv_r, Rmult_1_l, Rmult_1_r by lra.
    apply (total_le (coset lg c h)); assumption. }
  set (x := fun s => prob n (fun w => draws lg B t0 t1 (ff_sampling RF exact_table k lg 0 t0 t1 T 0 (sigma_min RF lg) (stream w) 0) s)) in *.
  apply Rle_trans with (lsum (fun s => / D * (Rabs (x s - wts lg s / W) + (1 - PE + eps lg) * (wts lg s / W))) K).
  - unfold K. rewrite lsum_map. apply lsum_le. intros p Hp. destruct (AK p Hp) as [_ Ep]. rewrite Ep.
    rewrite (prob_split (136 * j) n (fun w => hashes_to (hash_to_point j (fun _ => stream w) lg salt msg poly) c) (fun w => pass_draws lg B T k c w (snd p))). rewrite HL.
    change (IZR q ^ 2 ^ lg) with D. unfold pass_draws. rewrite Ht. fold (x (snd p)). apply sub_bound; try assumption. left. apply exp_pos.
  - rewrite lsum_scal. apply Rmult_le_compat_l; [lra|]. rewrite lsum_plus, lsum_scal. apply Rplus_le_compat; [exact TV|].
    rewrite <- (Rmult_1_r (1 - PE + eps lg)) at 2. apply Rmult_le_compat_l; [lra|exact SW].
Qed.

(** ** example *)
Lemma coset_zero lg h c : length c = (2 ^ lg)%nat -> coset lg c h (c, repeat 0%Z (2 ^ lg)).
Proof.
  intros Lc. unfold coset. cbn [fst snd]. split; [exact Lc|]. split; [apply repeat_length|]. apply (list_ext 0%Z); [rewrite modq_length; unfold s1_residues; rewrite tab_length; exact Lc|].
  rewrite modq_length. intros i Hi. rewrite Lc in Hi. unfold s1_residues. rewrite nth_tab by exact Hi. unfold modq. rewrite (nth_indep _ 0%Z (0 mod q)%Z) by (rewrite map_length; lia). rewrite (map_nth (fun x => x mod q)%Z).
  f_equal. unfold negacyclic. rewrite nth_tab by exact Hi.
  assert (E : forall m n (g : nat -> Z), zsum m (fun i => nth i (repeat 0%Z n) 0%Z * g i)%Z = 0%Z).
  { induction m as [|m IH]; intros n g; [reflexivity|]. cbn [zsum]. rewrite IH, nth_repeat. lia. }
  rewrite E. lia.
Qed.
Lemma sim_example h : let c := tab (2 ^ 9) (fun i => (24 * Z.of_nat i)%Z) in length c = (2 ^ 9)%nat /\ Forall canon c /\ coset 9 c h (c, repeat 0%Z (2 ^ 9)).
Proof.
  cbv zeta. split; [apply tab_length|]. split; [|apply coset_zero, tab_length].
  apply Forall_forall. intros x Hx. unfold tab in Hx. apply in_map_iff in Hx. destruct Hx as (i & <- & Hi). apply in_seq in Hi. unfold canon.
  change (2 ^ 9)%nat with 512%nat in Hi. change q with 12289%Z. lia.
Qed.
