(** P_gsum.v -- sums of Gaussian weights over the integers, and the distance of one sample from the discrete Gaussian. *)
From Verif Require Import Base Spec SpecR SpecG M_float M_exact M_samp P_gauss P_prob P_dist.
From Verif Require P_exact.
From Coq Require Import Reals Lra.
Open Scope R_scope.

(** ** sums over lists *)
Lemma lsum_app {A} (f : A -> R) l l' : lsum f (l ++ l') = lsum f l + lsum f l'.
Proof. unfold lsum. induction l as [|x l IH]; cbn [app fold_right]; [lra|]. rewrite IH. ring. Qed.
Lemma lsum_map {A B} (f : A -> R) (g : B -> A) l : lsum f (map g l) = lsum (fun b => f (g b)) l.
Proof. unfold lsum. induction l as [|x l IH]; cbn [map fold_right]; [reflexivity|]. rewrite IH. reflexivity. Qed.
Lemma lsum_flat {A B} (f : A -> R) (g : B -> list A) l : lsum f (flat_map g l) = lsum (fun b => lsum f (g b)) l.
Proof. induction l as [|x l IH]; [reflexivity|]. cbn [flat_map]. rewrite lsum_app, IH. reflexivity. Qed.
Lemma lsum_ext {A} (f g : A -> R) l : (forall x, In x l -> f x = g x) -> lsum f l = lsum g l.
Proof. intros H. unfold lsum. induction l as [|x l IH]; [reflexivity|]. cbn [fold_right]. rewrite H by (left; reflexivity). rewrite IH by (intros y Hy; apply H; right; exact Hy). reflexivity. Qed.
Lemma lsum_le {A} (f g : A -> R) l : (forall x, In x l -> f x <= g x) -> lsum f l <= lsum g l.
Proof. intros H. unfold lsum. induction l as [|x l IH]; [apply Rle_refl|]. cbn [fold_right]. apply Rplus_le_compat; [apply H; left; reflexivity|apply IH; intros y Hy; apply H; right; exact Hy]. Qed.
Lemma lsum_scal {A} c (f : A -> R) l : lsum (fun x => c * f x) l = c * lsum f l.
Proof. unfold lsum. induction l as [|x l IH]; cbn [fold_right]; [lra|]. rewrite IH. ring. Qed.
Lemma lsum_plus {A} (f g : A -> R) l : lsum (fun x => f x + g x) l = lsum f l + lsum g l.
Proof. unfold lsum. induction l as [|x l IH]; cbn [fold_right]; [lra|]. rewrite IH. ring. Qed.
Lemma lsum_pos {A} (f : A -> R) l : (forall x, 0 <= f x) -> 0 <= lsum f l.
Proof. intros H. unfold lsum. induction l as [|x l IH]; cbn [fold_right]; [lra|]. specialize (H x). lra. Qed.
Lemma lsum_seq (f : nat -> R) n : lsum f (seq 0 n) = rsum n f.
Proof.
  induction n as [|n IH]; [reflexivity|]. rewrite seq_S, lsum_app, IH. cbn. ring.
Qed.
(** distinct elements of L are elements of B, or contribute nothing *)
Lemma lsum_incl {A} (f : A -> R) : (forall x y : A, {x = y} + {x <> y}) -> (forall x, 0 <= f x) -> forall L B, NoDup L -> (forall x, In x L -> In x B \/ f x = 0) -> lsum f L <= lsum f B.
Proof.
  intros dec Hf. induction L as [|x L IH]; intros B ND H; [apply lsum_pos; exact Hf|]. inversion ND as [|? ? Nx ND']. subst. change (lsum f (x :: L)) with (f x + lsum f L).
  destruct (H x (or_introl eq_refl)) as [I|Z].
  - apply in_split in I. destruct I as (B1 & B2 & ->). rewrite lsum_app. change (lsum f (x :: B2)) with (f x + lsum f B2).
    assert (K := IH (B1 ++ B2) ND'). rewrite lsum_app in K. enough (lsum f L <= lsum f B1 + lsum f B2) by lra. apply K. intros y Hy. destruct (H y (or_intror Hy)) as [I|Z]; [|right; exact Z].
    left. apply in_app_or in I. apply in_or_app. destruct I as [I|[->|I]]; [left; exact I|contradiction|right; exact I].
  - rewrite Z, Rplus_0_l. apply IH; [exact ND'|]. intros y Hy. apply H. right. exact Hy.
Qed.

(** ** integers around fl *)
Definition vals (M : nat) (fl : Z) : list Z := map (fun j => fl - Z.of_nat j)%Z (seq 0 (S M)) ++ map (fun j => fl + 1 + Z.of_nat j)%Z (seq 0 (S M)).
Lemma vals_in M fl v : In v (vals M fl) <-> (- Z.of_nat M <= v - fl <= Z.of_nat M + 1)%Z.
Proof.
  unfold vals. rewrite in_app_iff, !in_map_iff. split.
  - intros [(j & <- & Hj)|(j & <- & Hj)]; apply in_seq in Hj; lia.
  - intros H. destruct (Z.le_gt_cases v fl); [left; exists (Z.to_nat (fl - v))|right; exists (Z.to_nat (v - fl - 1))]; rewrite in_seq; lia.
Qed.
Lemma NoDup_map_inj {A B} (f : A -> B) l : (forall x y, f x = f y -> x = y) -> NoDup l -> NoDup (map f l).
Proof.
  intros I. induction l as [|x l IH]; intros H; cbn [map]; [constructor|]. inversion H as [|? ? Nx H']. subst. constructor; [|apply IH; exact H'].
  intros K. apply in_map_iff in K. destruct K as (y & E & Hy). apply I in E. subst. contradiction.
Qed.
Lemma NoDup_app {A} (l l' : list A) : NoDup l -> NoDup l' -> (forall x, In x l -> ~ In x l') -> NoDup (l ++ l').
Proof.
  induction l as [|x l IH]; intros H H' D; [exact H'|]. inversion H as [|? ? Nx H1]. subst. cbn [app]. constructor.
  - rewrite in_app_iff. intros [K|K]; [contradiction|]. apply (D x); [left; reflexivity|exact K].
  - apply IH; [exact H1|exact H'|]. intros y Hy. apply D. right. exact Hy.
Qed.
Lemma vals_nodup M fl : NoDup (vals M fl).
Proof.
  unfold vals. apply NoDup_app; [apply NoDup_map_inj; [lia|apply seq_NoDup]|apply NoDup_map_inj; [lia|apply seq_NoDup]|].
  intros x H K. apply in_map_iff in H, K. destruct H as (j & <- & _), K as (j' & E & _). lia.
Qed.
Lemma lsum_vals (f : Z -> R) M fl : lsum f (vals M fl) = rsum (S M) (fun j => f (fl - Z.of_nat j)%Z) + rsum (S M) (fun j => f (fl + 1 + Z.of_nat j)%Z).
Proof. unfold vals. rewrite lsum_app, !lsum_map, !lsum_seq. reflexivity. Qed.
Lemma vals_cover (l : list Z) fl : exists M, forall v, In v l -> In v (vals M fl).
Proof.
  induction l as [|x l [M H]]; [exists 0%nat; intros v []|]. exists (M + Z.to_nat (Z.abs (x - fl)))%nat. intros v [->|Hv]; apply vals_in; [lia|]. apply H, vals_in in Hv. lia.
Qed.

(** ** the sum over all integers *)
Lemma rho_le1 s c x : rho s c x <= 1.
Proof.
  unfold rho. rewrite <- exp_0. apply exp_le. enough (0 <= (x - c) ^ 2 / (2 * s ^ 2)) by lra. destruct (Req_dec s 0) as [->|N].
  - rewrite (pow_i 2) by lia. rewrite Rmult_0_r. unfold Rdiv. rewrite Rinv_0, Rmult_0_r. lra.
  - apply Rmult_le_pos; [apply pow2_ge_0|]. left. apply Rinv_0_lt_compat. assert (0 < s ^ 2) by (rewrite <- Rsqr_pow2; apply Rsqr_pos_lt; exact N). lra.
Qed.
Definition gset (s c x : R) : Prop := x <= 1000 /\ exists l : list Z, NoDup l /\ x = lsum (fun z => rho s c (IZR z)) l.
Lemma gset_bound s c : bound (gset s c). Proof. exists 1000. intros x [H _]. exact H. Qed.
Lemma gset_in s c : exists x, gset s c x. Proof. exists 0. split; [lra|]. exists []. split; [constructor|reflexivity]. Qed.
Definition gsum (s c : R) : R := proj1_sig (completeness (gset s c) (gset_bound s c) (gset_in s c)).

Section One.
Variables c s : R.
Hypotheses (Hs1 : 1 <= s) (Hs : s <= 18205 / 10000).
Notation fl := (Rfloor c).
Notation rv v := (rho s c (IZR v)).
Lemma rho_pos' v : 0 <= rv v. Proof. left. apply rho_pos. Qed.
Lemma part_sum (f : nat -> R) l n : infinite_sum f l -> (forall k, 0 <= f k) -> rsum (S n) f <= l.
Proof. intros H P. rewrite <- sum_rsum. apply sum_incr; assumption. Qed.
Lemma two_sides Gm Gp : infinite_sum (fun k => rv (fl - Z.of_nat k)%Z) Gm -> infinite_sum (fun k => rv (fl + 1 + Z.of_nat k)%Z) Gp -> gauss_sum s c (Gm + Gp).
Proof.
  intros H1 H2. split.
  - intros x (l & ND & ->). destruct (vals_cover l fl) as [M HM]. apply Rle_trans with (lsum (fun z => rv z) (vals M fl)).
    + apply lsum_incl; [exact Z.eq_dec|exact rho_pos'|exact ND|]. intros v Hv. left. apply HM, Hv.
    + rewrite lsum_vals. apply Rplus_le_compat; apply part_sum; try assumption; intros k; apply rho_pos'.
  - intros b Hb. assert (C := CV_plus _ _ _ _ H1 H2).
    refine (@Rle_cv_lim _ (fun _ => b) _ _ _ C _).
    + intros n. rewrite !sum_rsum. apply Hb. exists (vals n fl). split; [apply vals_nodup|]. symmetry. apply lsum_vals.
    + intros e He. exists 0%nat. intros n _. unfold R_dist. rewrite Rminus_diag_eq, Rabs_R0 by reflexivity. exact He.
Qed.
Lemma gsum_ok : gauss_sum s c (gsum s c) /\ 1 / 2 <= gsum s c /\ gsum s c - / 2 ^ 76 <= lsum (fun v => rv v) (vals 18 fl).
Proof.
  destruct (dom_cv _ (left_dom c s 1 ltac:(lra) Hs1 Hs)) as (Gm & C1 & L1 & U1). destruct (dom_cv _ (right_dom c s 1 ltac:(lra) Hs1 Hs)) as (Gp & C2 & L2 & U2).
  assert (G := two_sides Gm Gp C1 C2). 
  assert (B : Gm + Gp <= 1000).
  { assert (X : forall (f : nat -> R), (forall k, 0 <= f k <= rho smax 0 (INR k)) -> sum_f_R0 f 18 <= 19).
    { intros f Hf. assert (Y : forall n, sum_f_R0 f n <= INR (S n)). { induction n as [|n IH]; cbn [sum_f_R0]; [|rewrite S_INR]; [simpl; specialize (Hf 0%nat)|specialize (Hf (S n))].
        - assert (E := rho_le1 smax 0 (INR 0)). lra. - assert (E := rho_le1 smax 0 (INR (S n))). lra. }
      eapply Rle_trans; [apply Y|]. simpl. lra. }
    assert (X1 := X _ (left_dom c s 1 ltac:(lra) Hs1 Hs)). assert (X2 := X _ (right_dom c s 1 ltac:(lra) Hs1 Hs)). cbv beta in X1, X2. assert (/ 2 ^ 77 <= 1) by (simpl; lra). lra. }
  assert (E : gsum s c = Gm + Gp).
  { unfold gsum. destruct (completeness _ _ _) as [m [U L]]. cbn [proj1_sig]. destruct G as [U' L']. apply Rle_antisym.
    - apply L. intros x [_ Hx]. apply U', Hx.
    - apply L'. intros x Hx. apply U. split; [|exact Hx]. eapply Rle_trans; [apply U', Hx|exact B]. }
  rewrite E. split; [exact G|]. rewrite !sum_rsum in *. split.
  - assert (H0 : rv fl <= Gm). { assert (P := part_sum _ _ 0 C1 ltac:(intros; apply rho_pos')). cbn [rsum] in P. rewrite Z.sub_0_r in P. lra. }
    assert (H1 : 0 <= Gp). { assert (P := part_sum _ _ 0 C2 ltac:(intros; apply rho_pos')). cbn [rsum] in P. assert (Q := rho_pos' (fl + 1 + Z.of_nat 0)%Z). lra. }
    assert (H2 : 1 / 2 <= rv fl). { unfold rho. assert (F := P_exact.Rfloor_spec c). replace ((IZR fl - c) ^ 2) with ((c - IZR fl) ^ 2) by ring. apply (at_half s 1); lra. } lra.
  - rewrite lsum_vals. assert (/ 2 ^ 76 = 2 * / 2 ^ 77) by (simpl; field). lra.
Qed.
End One.
