(** P_l2.v -- Euclidean norms of complex vectors (functions on the first n indices). *)
From Verif Require Import Base Ring Poly Spec SpecR P_cplx.
From Coq Require Import Ring_theory Ring Lra Psatz.
Open Scope R_scope.

(** ** real vectors *)
Lemma Rsigma_ext n f g : (forall i, (i < n)%nat -> f i = g i) -> Rsigma n f = Rsigma n g.
Proof. induction n as [|n IH]; intros H; [reflexivity|]. cbn [Rsigma]. rewrite IH, H by (try lia; intros; apply H; lia). reflexivity. Qed.
Lemma Rsigma_le n f g : (forall i, (i < n)%nat -> f i <= g i) -> Rsigma n f <= Rsigma n g.
Proof. induction n as [|n IH]; intros H; [apply Rle_refl|]. cbn [Rsigma]. apply Rplus_le_compat; [apply IH; intros; apply H; lia|apply H; lia]. Qed.
Lemma Rsigma_pos n f : (forall i, (i < n)%nat -> 0 <= f i) -> 0 <= Rsigma n f.
Proof. intros H. replace 0 with (Rsigma n (fun _ => 0)); [apply Rsigma_le; exact H|]. clear. induction n as [|n IH]; [reflexivity|]. cbn [Rsigma]. rewrite IH. ring. Qed.
Lemma Rsigma_add n f g : Rsigma n (fun i => f i + g i) = Rsigma n f + Rsigma n g.
Proof. induction n as [|n IH]; cbn [Rsigma]; [ring|]. rewrite IH. ring. Qed.
Lemma Rsigma_mul n c f : Rsigma n (fun i => c * f i) = c * Rsigma n f.
Proof. induction n as [|n IH]; cbn [Rsigma]; [ring|]. rewrite IH. ring. Qed.
Lemma Rsigma_const n c : Rsigma n (fun _ => c) = INR n * c.
Proof. induction n as [|n IH]; [simpl; ring|]. cbn [Rsigma]. rewrite IH, S_INR. ring. Qed.
Lemma Rsigma_term n f i : (i < n)%nat -> (forall j, (j < n)%nat -> 0 <= f j) -> f i <= Rsigma n f.
Proof.
  induction n as [|n IH]; intros Hi H; [lia|]. cbn [Rsigma]. assert (P : 0 <= Rsigma n f) by (apply Rsigma_pos; intros; apply H; lia).
  destruct (Nat.eq_dec i n) as [->|Hn]; [lra|]. assert (X := IH ltac:(lia) ltac:(intros; apply H; lia)). assert (Y := H n ltac:(lia)). lra.
Qed.
(** a quadratic form without real root *)
Lemma cauchy n f g : Rsigma n (fun i => f i * g i) * Rsigma n (fun i => f i * g i) <= Rsigma n (fun i => f i * f i) * Rsigma n (fun i => g i * g i).
Proof.
  induction n as [|n IH]; [simpl; lra|]. cbn [Rsigma].
  set (a := Rsigma n (fun i => f i * g i)) in *. set (b := Rsigma n (fun i => f i * f i)) in *. set (c := Rsigma n (fun i => g i * g i)) in *.
  assert (Hb : 0 <= b) by (apply Rsigma_pos; intros; apply Rle_0_sqr). assert (Hc : 0 <= c) by (apply Rsigma_pos; intros; apply Rle_0_sqr).
  set (x := f n). set (y := g n). clearbody a b c x y.
  assert (K : 2 * a * (x * y) <= b * (y * y) + c * (x * x)).
  { assert (S1 : (a * (x * y)) * (a * (x * y)) <= (b * (y * y)) * (c * (x * x))).
    { replace (a * (x * y) * (a * (x * y))) with (a * a * (x * x * (y * y))) by ring. replace (b * (y * y) * (c * (x * x))) with (b * c * (x * x * (y * y))) by ring.
      apply Rmult_le_compat_r; [|exact IH]. apply Rmult_le_pos; apply Rle_0_sqr. }
    set (p := b * (y * y)) in *. set (r := c * (x * x)) in *. assert (0 <= p) by (apply Rmult_le_pos; [assumption|apply Rle_0_sqr]). assert (0 <= r) by (apply Rmult_le_pos; [assumption|apply Rle_0_sqr]).
    set (s := a * (x * y)) in *. replace (2 * a * (x * y)) with (2 * s) by (unfold s; ring). clearbody p r s.
    destruct (Rle_or_lt (2 * s) (p + r)) as [|L]; [assumption|]. exfalso. assert ((p + r) * (p + r) < 2 * s * (2 * s)) by nra. pose proof (Rle_0_sqr (p - r)) as Z. unfold Rsqr in Z. nra. }
  replace ((a + x * y) * (a + x * y)) with (a * a + 2 * a * (x * y) + x * x * (y * y)) by ring.
  replace ((b + x * x) * (c + y * y)) with (b * c + (b * (y * y) + c * (x * x)) + x * x * (y * y)) by ring. lra.
Qed.
Definition rn (n : nat) (f : nat -> R) : R := sqrt (Rsigma n (fun i => f i * f i)).
Lemma rn_arg n f : 0 <= Rsigma n (fun i => f i * f i).
Proof. apply Rsigma_pos. intros; apply Rle_0_sqr. Qed.
Lemma rn_pos n f : 0 <= rn n f.
Proof. apply sqrt_pos. Qed.
Lemma rn_sq n f : rn n f * rn n f = Rsigma n (fun i => f i * f i).
Proof. apply sqrt_sqrt, rn_arg. Qed.
Lemma sq_le a b : 0 <= b -> a * a <= b * b -> a <= b.
Proof. intros H1 H2. nra. Qed.
Lemma rn_tri n f g : rn n (fun i => f i + g i) <= rn n f + rn n g.
Proof.
  apply sq_le; [pose proof (rn_pos n f); pose proof (rn_pos n g); lra|]. rewrite rn_sq.
  replace ((rn n f + rn n g) * (rn n f + rn n g)) with (rn n f * rn n f + rn n g * rn n g + 2 * (rn n f * rn n g)) by ring. rewrite !rn_sq.
  rewrite (Rsigma_ext n _ (fun i => (f i * f i + g i * g i) + 2 * (f i * g i))) by (intros; ring). rewrite !Rsigma_add, Rsigma_mul.
  assert (C : Rsigma n (fun i => f i * g i) <= rn n f * rn n g).
  { apply sq_le; [apply Rmult_le_pos; apply rn_pos|]. replace (rn n f * rn n g * (rn n f * rn n g)) with (rn n f * rn n f * (rn n g * rn n g)) by ring. rewrite !rn_sq. apply cauchy. }
  lra.
Qed.
Lemma rn_mono n f g : (forall i, (i < n)%nat -> 0 <= f i <= g i) -> rn n f <= rn n g.
Proof. intros H. apply sqrt_le_1_alt, Rsigma_le. intros i Hi. destruct (H i Hi). nra. Qed.
Lemma rn_scal n c f : 0 <= c -> rn n (fun i => c * f i) = c * rn n f.
Proof.
  intros Hc. unfold rn. rewrite (Rsigma_ext n _ (fun i => c * c * (f i * f i))) by (intros; ring). rewrite Rsigma_mul.
  rewrite sqrt_mult; [rewrite sqrt_square by exact Hc; reflexivity|apply Rle_0_sqr|apply rn_arg].
Qed.
Lemma rn_const n c : 0 <= c -> rn n (fun _ => c) = sqrt (INR n) * c.
Proof. intros Hc. unfold rn. rewrite Rsigma_const, sqrt_mult, sqrt_square; [reflexivity|exact Hc|apply pos_INR|apply Rle_0_sqr]. Qed.

(** ** complex vectors *)
Definition Cm (x : Cx) : R := sqrt (mod2 x).
Lemma mod2_pos x : 0 <= mod2 x.
Proof. unfold mod2. nra. Qed.
Lemma Cm_pos x : 0 <= Cm x. Proof. apply sqrt_pos. Qed.
Lemma Cm_sq x : Cm x * Cm x = mod2 x. Proof. apply sqrt_sqrt, mod2_pos. Qed.
Lemma Cm_le x b : 0 <= b -> mod2 x <= b * b -> Cm x <= b.
Proof. intros H1 H2. apply sq_le; [exact H1|]. rewrite Cm_sq. exact H2. Qed.
Lemma Cm_mod2 x b : Cm x <= b -> mod2 x <= b * b.
Proof. intros H. rewrite <- Cm_sq. pose proof (Cm_pos x). nra. Qed.
Lemma Cm_fst x : Rabs (fst x) <= Cm x.
Proof. apply sq_le; [apply Cm_pos|]. rewrite Cm_sq. unfold mod2. replace (Rabs (fst x) * Rabs (fst x)) with (fst x * fst x) by (rewrite <- Rabs_mult, Rabs_right; [reflexivity|apply Rle_ge, Rle_0_sqr]). nra. Qed.
Lemma Cm_snd x : Rabs (snd x) <= Cm x.
Proof. apply sq_le; [apply Cm_pos|]. rewrite Cm_sq. unfold mod2. replace (Rabs (snd x) * Rabs (snd x)) with (snd x * snd x) by (rewrite <- Rabs_mult, Rabs_right; [reflexivity|apply Rle_ge, Rle_0_sqr]). nra. Qed.
Lemma Cm_comp x a b : 0 <= a -> Rabs (fst x) <= a * Rabs (fst b) -> Rabs (snd x) <= a * Rabs (snd b) -> Cm x <= a * Cm b.
Proof.
  intros Ha H1 H2. apply Cm_le; [apply Rmult_le_pos; [exact Ha|apply Cm_pos]|]. replace (a * Cm b * (a * Cm b)) with (a * a * (Cm b * Cm b)) by ring. rewrite Cm_sq. unfold mod2.
  assert (E : forall t, t * t = Rabs t * Rabs t) by (intros t; rewrite <- Rabs_mult, Rabs_right; [reflexivity|apply Rle_ge, Rle_0_sqr]).
  rewrite (E (fst x)), (E (snd x)), (E (fst b)), (E (snd b)). pose proof (Rabs_pos (fst x)). pose proof (Rabs_pos (snd x)).
  assert (Rabs (fst x) * Rabs (fst x) <= (a * Rabs (fst b)) * (a * Rabs (fst b))) by nra. assert (Rabs (snd x) * Rabs (snd x) <= (a * Rabs (snd b)) * (a * Rabs (snd b))) by nra. nra.
Qed.
Lemma Cm_two x a b : Rabs (fst x) <= a -> Rabs (snd x) <= b -> Cm x <= a + b.
Proof.
  intros H1 H2. pose proof (Rabs_pos (fst x)). pose proof (Rabs_pos (snd x)). apply Cm_le; [lra|]. unfold mod2.
  assert (E : forall t, t * t = Rabs t * Rabs t) by (intros t; rewrite <- Rabs_mult, Rabs_right; [reflexivity|apply Rle_ge, Rle_0_sqr]). rewrite (E (fst x)), (E (snd x)). nra.
Qed.
Lemma Cm_tri x y : Cm (Cadd x y) <= Cm x + Cm y.
Proof.
  pose proof (Cm_pos x). pose proof (Cm_pos y). apply sq_le; [lra|]. rewrite Cm_sq.
  replace ((Cm x + Cm y) * (Cm x + Cm y)) with (Cm x * Cm x + Cm y * Cm y + 2 * (Cm x * Cm y)) by ring. rewrite !Cm_sq.
  assert (C : fst x * fst y + snd x * snd y <= Cm x * Cm y).
  { apply sq_le; [nra|]. replace (Cm x * Cm y * (Cm x * Cm y)) with (Cm x * Cm x * (Cm y * Cm y)) by ring. rewrite !Cm_sq. unfold mod2. pose proof (Rle_0_sqr (fst x * snd y - snd x * fst y)) as Z. unfold Rsqr in Z. nra. }
  unfold mod2, Cadd. cbn [fst snd]. lra.
Qed.
Lemma Cm_mul x y : Cm (Cmul x y) = Cm x * Cm y.
Proof. unfold Cm. rewrite <- sqrt_mult by apply mod2_pos. f_equal. unfold mod2, Cmul. cbn [fst snd]. ring. Qed.
Lemma Cm_opp x : Cm (Copp x) = Cm x.
Proof. unfold Cm. f_equal. unfold mod2, Copp. cbn [fst snd]. ring. Qed.
Lemma Cm_conj x : Cm (Cconj x) = Cm x.
Proof. unfold Cm. f_equal. unfold mod2, Cconj. cbn [fst snd]. ring. Qed.
Lemma Cm_zero : Cm Czero = 0.
Proof. unfold Cm, mod2, Czero. cbn [fst snd]. rewrite Rmult_0_l, Rplus_0_l. apply sqrt_0. Qed.
Lemma Csub_add x y : Csub x y = Cadd x (Copp y).
Proof. unfold Csub, Cadd, Copp. cbn [fst snd]. f_equal; ring. Qed.
Lemma Cm_sub x y : Cm (Csub x y) <= Cm x + Cm y.
Proof. rewrite Csub_add. rewrite <- (Cm_opp y). apply Cm_tri. Qed.
Lemma Cm_swap x y : Cm (Csub x y) = Cm (Csub y x).
Proof. rewrite <- Cm_opp. f_equal. unfold Csub, Copp. cbn [fst snd]. f_equal; ring. Qed.
Lemma Cm_le_add x y : Cm x <= Cm y + Cm (Csub x y).
Proof. replace x with (Cadd y (Csub x y)) at 1 by (unfold Csub, Cadd; destruct x, y; cbn [fst snd]; f_equal; ring). apply Cm_tri. Qed.

Definition nrm (n : nat) (f : nat -> Cx) : R := rn n (fun i => Cm (f i)).
Lemma nrm_pos n f : 0 <= nrm n f. Proof. apply rn_pos. Qed.
Lemma nrm_sq n f : nrm n f * nrm n f = Rsigma n (fun i => mod2 (f i)).
Proof. unfold nrm. rewrite rn_sq. apply Rsigma_ext. intros. apply Cm_sq. Qed.
Lemma nrm_ext n f g : (forall i, (i < n)%nat -> f i = g i) -> nrm n f = nrm n g.
Proof. intros H. unfold nrm, rn. f_equal. apply Rsigma_ext. intros i Hi. rewrite H by exact Hi. reflexivity. Qed.
Lemma nrm_bound n f g a b : 0 <= a -> 0 <= b -> (forall i, (i < n)%nat -> Cm (f i) <= a * Cm (g i) + b) -> nrm n f <= a * nrm n g + b * sqrt (INR n).
Proof.
  intros Ha Hb H. unfold nrm. eapply Rle_trans; [apply (rn_mono n _ (fun i => a * Cm (g i) + b)); intros i Hi; split; [apply Cm_pos|apply H; exact Hi]|].
  eapply Rle_trans; [apply (rn_tri n (fun i => a * Cm (g i)) (fun _ => b))|]. rewrite rn_scal, rn_const by assumption. lra.
Qed.
Lemma nrm_le n f g : (forall i, (i < n)%nat -> Cm (f i) <= Cm (g i)) -> nrm n f <= nrm n g.
Proof. intros H. apply rn_mono. intros i Hi. split; [apply Cm_pos|apply H; exact Hi]. Qed.
Lemma nrm_tri n f g : nrm n (fun i => Cadd (f i) (g i)) <= nrm n f + nrm n g.
Proof.
  unfold nrm. eapply Rle_trans; [|apply rn_tri]. apply rn_mono. intros i Hi. split; [apply Cm_pos|apply Cm_tri].
Qed.
Lemma nrm_sub n f g : nrm n (fun i => Csub (f i) (g i)) <= nrm n f + nrm n g.
Proof.
  unfold nrm. eapply Rle_trans; [|apply rn_tri]. apply rn_mono. intros i Hi. split; [apply Cm_pos|apply Cm_sub].
Qed.
Lemma nrm_le_add n f g : nrm n f <= nrm n g + nrm n (fun i => Csub (f i) (g i)).
Proof. eapply Rle_trans; [|apply nrm_tri]. apply nrm_le. intros i Hi. right. f_equal. unfold Csub, Cadd. destruct (f i), (g i). cbn [fst snd]. f_equal; ring. Qed.
Lemma nrm_mul n f g S : 0 <= S -> (forall i, (i < n)%nat -> Cm (g i) <= S) -> nrm n (fun i => Cmul (f i) (g i)) <= S * nrm n f.
Proof.
  intros HS H. eapply Rle_trans; [apply (nrm_bound n _ f S 0 HS (Rle_refl 0))|lra]. intros i Hi. rewrite Cm_mul. assert (X := H i Hi). pose proof (Cm_pos (f i)). nra.
Qed.
Lemma nrm_comp n f i : (i < n)%nat -> Cm (f i) <= nrm n f.
Proof.
  intros Hi. apply sq_le; [apply nrm_pos|]. rewrite nrm_sq, Cm_sq. apply (Rsigma_term n (fun i => mod2 (f i)) i Hi). intros. apply mod2_pos.
Qed.
Lemma nrm_sup n f b : 0 <= b -> (forall i, (i < n)%nat -> Cm (f i) <= b) -> nrm n f <= sqrt (INR n) * b.
Proof. intros Hb H. unfold nrm. rewrite <- rn_const by exact Hb. apply rn_mono. intros i Hi. split; [apply Cm_pos|apply H; exact Hi]. Qed.
