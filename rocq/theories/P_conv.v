(** P_conv.v -- sums of independent discrete Gaussians are close to a discrete Gaussian. *)
From Verif Require Import Base Spec SpecG SpecJ SpecK P_prob P_gsum P_tot P_theta.
From Verif Require P_genlaw.
From Coq Require Import Reals Lra Classical_Prop.
Open Scope R_scope.
Notation z38 := P_genlaw.z38.
Notation z38_in := P_genlaw.z38_in.

(** ** sums over the integers and over the half-odd integers *)
Definition dev (k h : R) : Prop := forall X Y, th k 0 X -> th k (1 / 2) Y -> (1 - h) * X <= Y <= X.
Lemma th_half k Y : th k (1 / 2) Y -> th k (- (1 / 2)) Y.
Proof. apply th_opp. Qed.
Lemma half_sq k G X Y : th k 0 G -> th (2 * k) 0 X -> th (2 * k) (1 / 2) Y -> G * G = X * X + Y * Y.
Proof.
  intros HG HX HY. apply th_half in HY. apply (th_prod k 0 0 G G X X Y Y HG HG); [revert HX|revert HX|revert HY|revert HY]; apply th_ext; try reflexivity; field.
Qed.
Lemma half_sq' k G X Y : th k (1 / 2) G -> th (2 * k) 0 X -> th (2 * k) (1 / 2) Y -> G * G = Y * X + X * Y.
Proof.
  intros HG HX HY. apply (th_prod k (1 / 2) (1 / 2) G G Y X X Y HG HG); [revert HY|revert HX|revert HX|apply th_half in HY; revert HY]; apply th_ext; try reflexivity; field.
Qed.
Lemma half_sum k G X Y : th (k / 2) 0 G -> th (2 * k) 0 X -> th (2 * k) (1 / 2) Y -> G = X + Y.
Proof.
  intros HG HX HY. refine (tot_unique _ _ _ HG _). apply (th_ext (k / 2) (2 * 0)); [reflexivity|ring|]. apply th_half in HY. apply th_split; [revert HX|revert HY]; apply th_ext; try reflexivity; field.
Qed.
Lemma dev_step k h h' : hasth (2 * k) -> 0 <= h <= 1 -> 0 <= h' <= 1 -> dev (2 * k) h -> h * h <= (1 - (1 - h') * (1 - h')) * (1 + (1 - h) * (1 - h)) -> dev k h'.
Proof.
  intros E Hh Hh' D Hn A B HA HB. destruct (E 0) as [X HX]. destruct (E (1 / 2)) as [Y HY]. destruct (D X Y HX HY) as [L U].
  assert (SA := half_sq k A X Y HA HX HY). assert (SB := half_sq' k B X Y HB HX HY).
  assert (PA := th_pos _ _ _ HA). assert (PB := th_pos _ _ _ HB). assert (PX := th_pos _ _ _ HX). assert (PY := th_pos _ _ _ HY). clear - Hh Hh' Hn L U SA SB PA PB PX PY.
  assert (Sq : 0 <= (X - Y) * (X - Y)) by apply Rle_0_sqr. split.
  - apply Rsqr_incr_0; [|apply Rmult_le_pos; lra|lra]. unfold Rsqr. rewrite SB. replace ((1 - h') * A * ((1 - h') * A)) with ((1 - h') * (1 - h') * (A * A)) by ring. rewrite SA.
    assert (K1 : (X - Y) * (X - Y) <= (h * X) * (h * X)) by (apply Rmult_le_compat; lra). assert (K2 : (1 - h) * X * ((1 - h) * X) <= Y * Y) by (apply Rmult_le_compat; try apply Rmult_le_pos; lra).
    set (a := (1 - h') * (1 - h')) in *. assert (Ha : 0 <= a <= 1) by (unfold a; nra). 
    assert (K3 : (h * h) * (X * X) <= (1 - a) * (1 + (1 - h) * (1 - h)) * (X * X)) by (apply Rmult_le_compat_r; [apply Rmult_le_pos; lra|exact Hn]).
    assert (K4 : (1 - a) * ((1 - h) * X * ((1 - h) * X)) <= (1 - a) * (Y * Y)) by (apply Rmult_le_compat_l; lra). lra.
  - apply Rsqr_incr_0; [|lra|lra]. unfold Rsqr. rewrite SA, SB. lra.
Qed.

(** ** the convolution of a discrete Gaussian with itself *)
Definition gz (k : R) (v : Z) : R := exp (- (k * (IZR v - 0) ^ 2)).
Lemma gz_pos k v : 0 < gz k v. Proof. apply exp_pos. Qed.
Lemma gz_conv k v x : gz k x * gz k (v - x) = gz (k / 2) v * exp (- (2 * k * (IZR x - IZR v / 2) ^ 2)).
Proof. unfold gz. rewrite <- !exp_plus. f_equal. rewrite minus_IZR. field. Qed.
Definition xy (X Y : R) (v : Z) : R := if Z.even v then X else Y.
Lemma th_centre k v X Y : th k 0 X -> th k (1 / 2) Y -> th k (IZR v / 2) (xy X Y v).
Proof.
  intros HX HY. unfold xy. destruct (Z.even v) eqn:Ev.
  - apply Z.even_spec in Ev. destruct Ev as [m ->]. apply (th_shift _ _ m) in HX. revert HX. apply th_ext; [reflexivity|]. rewrite mult_IZR. field.
  - assert (Od : Z.odd v = true) by (rewrite <- Z.negb_even, Ev; reflexivity). apply Z.odd_spec in Od. destruct Od as [m ->]. apply (th_shift _ _ m) in HY. revert HY. apply th_ext; [reflexivity|]. rewrite plus_IZR, mult_IZR. field.
Qed.
Lemma tot_near {X} (f : X -> R) G e : 0 < e -> tot f G -> exists l, NoDup l /\ G - e <= lsum f l.
Proof.
  intros He HG. apply NNPP. intros N. assert (K : G <= G - e); [|lra]. apply (tot_ub f G _ HG). intros l Nl. destruct (Rle_lt_dec (lsum f l) (G - e)) as [L|L]; [exact L|].
  exfalso. apply N. exists l. split; [exact Nl|lra].
Qed.
(** distance of two families *)
Definition l1 {X} (A B : X -> R) (e : R) : Prop := forall l, NoDup l -> lsum (fun v => Rabs (A v - B v)) l <= e.
Definition sub1 {X} (A : X -> R) : Prop := (forall v, 0 <= A v) /\ forall l, NoDup l -> lsum A l <= 1.
Lemma lsum_const {X} c (l : list X) : lsum (fun _ => c) l = INR (length l) * c.
Proof. induction l as [|x l IH]; unfold lsum in *; [simpl; ring|]. cbn [fold_right length]. rewrite S_INR, IH. ring. Qed.
Lemma lsum_swap {X Y} (f : X -> Y -> R) l m : lsum (fun x => lsum (f x) m) l = lsum (fun y => lsum (fun x => f x y) l) m.
Proof. induction l as [|x l IH]; unfold lsum in *; cbn [fold_right]; [induction m as [|y m IHm]; cbn [fold_right]; [reflexivity|rewrite <- IHm; ring]|]. rewrite IH. clear IH. induction m as [|y m IHm]; cbn [fold_right]; [ring|]. rewrite <- IHm. ring. Qed.
Lemma lsum_abs {X} (f : X -> R) l : Rabs (lsum f l) <= lsum (fun x => Rabs (f x)) l.
Proof. induction l as [|x l IH]; unfold lsum in *; cbn [fold_right]; [rewrite Rabs_R0; lra|]. eapply Rle_trans; [apply Rabs_triang|]. lra. Qed.
Lemma shift_nodup (x : Z) l : NoDup l -> NoDup (map (fun v => v - x)%Z l).
Proof. apply NoDup_map_inj. intros a b H. lia. Qed.
Lemma lsum_shift (f : Z -> R) x l : lsum (fun v => f (v - x)%Z) l = lsum f (map (fun v => v - x)%Z l).
Proof. symmetry. apply lsum_map. Qed.
Lemma sub1_shift A x l : sub1 A -> NoDup l -> lsum (fun v => A (v - x)%Z) l <= 1.
Proof. intros [_ H] N. rewrite lsum_shift. apply H, shift_nodup, N. Qed.
Lemma l1_shift (A B : Z -> R) e x l : l1 A B e -> NoDup l -> lsum (fun v => Rabs (A (v - x)%Z - B (v - x)%Z)) l <= e.
Proof. intros H N. rewrite (lsum_shift (fun v => Rabs (A v - B v)) x l). apply H, shift_nodup, N. Qed.
(** finite convolutions over a common range *)
Lemma conv_l1 (A B : Z -> R) e L l : 0 <= e -> sub1 A -> sub1 B -> l1 A B e -> NoDup L -> NoDup l ->
  lsum (fun v => Rabs (lsum (fun x => A x * A (v - x)%Z) L - lsum (fun x => B x * B (v - x)%Z) L)) l <= 2 * e.
Proof.
  intros He HA HB H NL Nl.
  apply Rle_trans with (lsum (fun v => lsum (fun x => A x * Rabs (A (v - x)%Z - B (v - x)%Z) + Rabs (A x - B x) * B (v - x)%Z) L) l).
  - apply lsum_le. intros v _. rewrite <- (Rmult_1_l (lsum (fun x => B x * B (v - x)%Z) L)). replace (lsum (fun x => A x * A (v - x)%Z) L - 1 * lsum (fun x => B x * B (v - x)%Z) L) with (lsum (fun x => A x * A (v - x)%Z) L + (-1) * lsum (fun x => B x * B (v - x)%Z) L) by ring.
    rewrite <- lsum_scal, <- lsum_plus. eapply Rle_trans; [apply lsum_abs|]. apply lsum_le. intros x _.
    replace (A x * A (v - x)%Z + -1 * (B x * B (v - x)%Z)) with (A x * (A (v - x)%Z - B (v - x)%Z) + (A x - B x) * B (v - x)%Z) by ring. eapply Rle_trans; [apply Rabs_triang|].
    rewrite !Rabs_mult. rewrite (Rabs_pos_eq (A x)) by apply HA. rewrite (Rabs_pos_eq (B (v - x)%Z)) by apply HB. lra.
  - rewrite lsum_swap. apply Rle_trans with (lsum (fun x => e * A x + 1 * Rabs (A x - B x)) L).
    + apply lsum_le. intros x _. rewrite lsum_plus, lsum_scal. apply Rplus_le_compat.
      * rewrite Rmult_comm. apply Rmult_le_compat_r; [apply HA|]. apply l1_shift; assumption.
      * rewrite (lsum_scal (Rabs (A x - B x))). rewrite Rmult_comm. apply Rmult_le_compat_r; [apply Rabs_pos|]. apply sub1_shift; assumption.
    + rewrite lsum_plus, !lsum_scal. assert (K1 := proj2 HA L NL). assert (K2 := H L NL). assert (e * lsum A L <= e * 1) by (apply Rmult_le_compat_l; assumption). lra.
Qed.
(** a range over which the convolution of a normalised Gaussian is complete up to eta *)
Section Double.
Variables (k G G2 X Y h : R).
Hypothesis HG : th k 0 G.
Hypothesis HG2 : th (k / 2) 0 G2.
Hypothesis HX : th (2 * k) 0 X.
Hypothesis HY : th (2 * k) (1 / 2) Y.
Hypothesis Hh : 0 <= h <= 1 / 100.
Hypothesis HD : dev (2 * k) h.
Definition dg (v : Z) : R := gz k v / G.
Definition dg2 (v : Z) : R := gz (k / 2) v / G2.
Definition full (v : Z) : R := gz (k / 2) v * xy X Y v / (G * G).
Lemma full_le v L : NoDup L -> lsum (fun x => dg x * dg (v - x)%Z) L <= full v.
Proof.
  intros NL. assert (PG := th_pos _ _ _ HG). rewrite (P_gsum.lsum_ext _ (fun x => gz (k / 2) v / (G * G) * exp (- (2 * k * (IZR x - IZR v / 2) ^ 2)))).
  - rewrite lsum_scal. unfold full. replace (gz (k / 2) v * xy X Y v / (G * G)) with (gz (k / 2) v / (G * G) * xy X Y v) by (field; lra). apply Rmult_le_compat_l.
    + left. apply Rdiv_lt_0_compat; [apply gz_pos|apply Rmult_lt_0_compat; lra].
    + apply (tot_le _ _ L (th_centre (2 * k) v X Y HX HY) NL).
  - intros x _. unfold dg. replace (gz k x / G * (gz k (v - x) / G)) with (gz k x * gz k (v - x) / (G * G)) by (field; lra). rewrite gz_conv. field. lra.
Qed.
Lemma full_near v eta : 0 < eta -> exists L, NoDup L /\ full v - eta <= lsum (fun x => dg x * dg (v - x)%Z) L.
Proof.
  intros He. assert (PG := th_pos _ _ _ HG). set (c := gz (k / 2) v / (G * G)). assert (Pc : 0 < c) by (apply Rdiv_lt_0_compat; [apply gz_pos|apply Rmult_lt_0_compat; lra]).
  destruct (tot_near _ _ (eta / c) (Rdiv_lt_0_compat _ _ He Pc) (th_centre (2 * k) v X Y HX HY)) as (L & NL & HL). exists L. split; [exact NL|].
  rewrite (P_gsum.lsum_ext _ (fun x => c * exp (- (2 * k * (IZR x - IZR v / 2) ^ 2)))).
  - rewrite lsum_scal. apply (Rmult_le_compat_l c) in HL; [|lra]. eapply Rle_trans; [|exact HL]. right. unfold full. fold c. unfold c. field. split; [lra|]. assert (K := gz_pos (k / 2) v). lra.
  - intros x _. unfold dg, c. replace (gz k x / G * (gz k (v - x) / G)) with (gz k x * gz k (v - x) / (G * G)) by (field; lra). rewrite gz_conv. field. lra.
Qed.
Lemma dg_pos v : 0 <= dg v. Proof. left. apply Rdiv_lt_0_compat; [apply gz_pos|exact (th_pos _ _ _ HG)]. Qed.
Lemma range_near l eta B : 0 < eta -> exists L, NoDup L /\ (forall x, In x B -> In x L) /\ forall v, In v l -> full v - eta <= lsum (fun x => dg x * dg (v - x)%Z) L.
Proof.
  intros He. assert (K : exists C, (forall x, In x B -> In x C) /\ forall v, In v l -> exists L, NoDup L /\ (forall x, In x L -> In x C) /\ full v - eta <= lsum (fun x => dg x * dg (v - x)%Z) L).
  { induction l as [|v l (C & HB & HC)]; [exists B; split; [auto|intros v []]|]. destruct (full_near v eta He) as (L & NL & HL). exists (L ++ C). split; [intros x Hx; apply in_or_app; right; apply HB, Hx|].
    intros w [<-|Hw]; [exists L; split; [exact NL|]; split; [intros x Hx; apply in_or_app; left; exact Hx|exact HL]|]. destruct (HC w Hw) as (L' & NL' & I' & H'). exists L'. split; [exact NL'|]. split; [intros x Hx; apply in_or_app; right; apply I', Hx|exact H']. }
  destruct K as (C & HB & HC). destruct (vals_cover C 0) as [M HM]. exists (vals M 0). split; [apply vals_nodup|]. split; [intros x Hx; apply HM, HB, Hx|].
  intros v Hv. destruct (HC v Hv) as (L & NL & IL & HL). eapply Rle_trans; [exact HL|]. apply lsum_incl; [exact Z.eq_dec|intros x; apply Rmult_le_pos; apply dg_pos|exact NL|]. intros x Hx. left. apply HM, IL, Hx.
Qed.
Lemma dg_sub1 : sub1 dg.
Proof.
  split; [exact dg_pos|]. intros l Nl. assert (PG := th_pos _ _ _ HG). unfold dg. rewrite (P_gsum.lsum_ext _ (fun v => / G * gz k v)) by (intros; unfold Rdiv; ring). rewrite lsum_scal.
  assert (K := tot_le _ _ l HG Nl). apply Rmult_le_reg_l with G; [exact PG|]. rewrite <- Rmult_assoc, Rinv_r, Rmult_1_l by lra. unfold gz. lra.
Qed.
Lemma full_rel v : Rabs (full v - dg2 v) <= 51 / 100 * h * dg2 v.
Proof.
  assert (PX := th_pos _ _ _ HX). assert (PY := th_pos _ _ _ HY). assert (PG := th_pos _ _ _ HG). destruct (HD X Y HX HY) as [L U].
  assert (SG := half_sq k G X Y HG HX HY). assert (EG := half_sum k G2 X Y HG2 HX HY). unfold full, dg2. rewrite SG, EG. set (e := gz (k / 2) v) in *. assert (Pe : 0 < e) by apply gz_pos. clearbody e.
  assert (PS : 0 < X * X + Y * Y) by (assert (0 < X * X) by (apply Rmult_lt_0_compat; lra); assert (0 < Y * Y) by (apply Rmult_lt_0_compat; lra); lra).
  assert (PE : 0 < e / (X + Y)) by (apply Rdiv_lt_0_compat; lra).
  replace (e * xy X Y v / (X * X + Y * Y) - e / (X + Y)) with (e / (X + Y) * ((xy X Y v * (X + Y) - (X * X + Y * Y)) / (X * X + Y * Y))) by (field; lra).
  rewrite Rabs_mult, (Rabs_pos_eq (e / (X + Y))) by lra. rewrite Rmult_comm. apply Rmult_le_compat_r; [lra|]. unfold Rdiv at 1. rewrite Rabs_mult, (Rabs_pos_eq (/ _)) by (left; apply Rinv_0_lt_compat; exact PS).
  apply Rmult_le_reg_r with (1 := PS). rewrite Rmult_assoc, Rinv_l, Rmult_1_r by lra.
  assert (K1 : 99 / 100 * X <= Y). { apply Rle_trans with ((1 - h) * X); [apply Rmult_le_compat_r; lra|exact L]. }
  assert (K2 : 99 / 100 * X * (99 / 100 * X) <= Y * Y) by (apply Rmult_le_compat; lra).
  assert (K3 : h * (X * X * (1 + 9801 / 10000)) <= h * (X * X + Y * Y)) by (apply Rmult_le_compat_l; lra).
  assert (K4 : X * (X - Y) <= X * (h * X)) by (apply Rmult_le_compat_l; lra). assert (K5 : 0 <= X * (X - Y)) by (apply Rmult_le_pos; lra). assert (K6 : 0 <= Y * (X - Y) <= X * (X - Y)) by (split; [apply Rmult_le_pos; lra|apply Rmult_le_compat_r; lra]).
  assert (K7 : 0 <= h * (X * X)) by (apply Rmult_le_pos; [lra|apply Rmult_le_pos; lra]).
  unfold xy. destruct (Z.even v); apply Rabs_le; lra.
Qed.
(** the distance after doubling *)
Lemma double (A : Z -> R) (B : list Z) e : 0 <= e -> sub1 A -> (forall x, ~ In x B -> A x = 0) -> NoDup B -> l1 A dg e -> l1 (fun v => lsum (fun x => A x * A (v - x)%Z) B) dg2 (2 * e + 51 / 100 * h).
Proof.
  intros He HA SA NB H l Nl. apply le_epsilon. intros eps Heps.
  set (n := INR (S (length l))). assert (Pn : 0 < n) by (apply lt_0_INR; lia). assert (Peta : 0 < eps / n) by (apply Rdiv_lt_0_compat; assumption).
  destruct (range_near l (eps / n) B Peta) as (L & NL & IL & HL).
  assert (EB : forall v, lsum (fun x => A x * A (v - x)%Z) B = lsum (fun x => A x * A (v - x)%Z) L).
  { intros v. assert (P : forall x, 0 <= A x * A (v - x)%Z) by (intros x; apply Rmult_le_pos; apply HA). apply Rle_antisym; apply lsum_incl; try assumption; try exact Z.eq_dec; intros x Hx; [left; apply IL, Hx|].
    destruct (in_dec Z.eq_dec x B) as [I|I]; [left; exact I|right; rewrite SA by exact I; ring]. }
  apply Rle_trans with (lsum (fun v => Rabs (lsum (fun x => A x * A (v - x)%Z) L - lsum (fun x => dg x * dg (v - x)%Z) L) + (eps / n + 51 / 100 * h * dg2 v)) l).
  - apply lsum_le. intros v Hv. rewrite EB. set (a := lsum _ L). set (b := lsum (fun x => dg x * dg (v - x)%Z) L).
    assert (K1 := HL v Hv). fold b in K1. assert (K2 := full_le v L NL). fold b in K2. assert (K3 := full_rel v).
    replace (a - dg2 v) with ((a - b) + ((b - full v) + (full v - dg2 v))) by ring. eapply Rle_trans; [apply Rabs_triang|]. apply Rplus_le_compat_l. eapply Rle_trans; [apply Rabs_triang|]. apply Rplus_le_compat; [apply Rabs_le; lra|exact K3].
  - rewrite lsum_plus. assert (K1 := conv_l1 A dg e L l He HA dg_sub1 H NL Nl). rewrite lsum_plus, lsum_scal.
    assert (K2 : lsum (fun _ : Z => eps / n) l <= eps).
    { rewrite (lsum_const (eps / n)).
      apply Rle_trans with (n * (eps / n)); [apply Rmult_le_compat_r; [lra|unfold n; rewrite S_INR; lra]|right; field; lra]. }
    assert (K3 : lsum dg2 l <= 1).
    { assert (P2 := th_pos _ _ _ HG2). unfold dg2. rewrite (P_gsum.lsum_ext _ (fun v => / G2 * gz (k / 2) v)) by (intros; unfold Rdiv; ring). rewrite lsum_scal.
      assert (K := tot_le _ _ l HG2 Nl). apply Rmult_le_reg_l with G2; [exact P2|]. rewrite <- Rmult_assoc, Rinv_r, Rmult_1_l by lra. unfold gz. lra. }
    assert (51 / 100 * h * lsum dg2 l <= 51 / 100 * h * 1) by (apply Rmult_le_compat_l; lra). lra.
Qed.
End Double.
