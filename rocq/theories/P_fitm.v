(** P_fitm.v -- the share of the Gaussian vectors whose compressed form does not fit. *)
From Verif Require Import Base Spec SpecR SpecS SpecG SpecJ M_float M_exact M_tree P_prob P_dist P_gsum P_jgauss P_jcoset P_tot P_theta P_wide P_loopk P_sim P_fit P_fitn.
From Verif Require P_leaf.
From Coq Require Import Reals Lra.
Open Scope R_scope.
Notation stot := Spec.tot.
Notation gtot := P_tot.tot.

(** ** sums over products *)
Lemma total_prod {X Y} (ex : forall x y : X, {x = y} + {x <> y}) (ey : forall x y : Y, {x = y} + {x <> y}) (dx : X -> Prop) (dy : Y -> Prop) (f : X -> R) (g : Y -> R) F G : (forall x, 0 <= f x) -> (forall y, 0 <= g y) ->
  total dx f F -> total dy g G -> total (fun p => dx (fst p) /\ dy (snd p)) (fun p => f (fst p) * g (snd p)) (F * G).
Proof.
  intros Pf Pg TF TG.
  assert (LP : forall l l', lsum (fun p => f (fst p) * g (snd p)) (list_prod l l') = lsum f l * lsum g l').
  { induction l as [|x l IH]; intros l'; [cbn; ring|]. cbn [list_prod]. rewrite lsum_app, IH, lsum_map. cbn [fst snd]. rewrite lsum_scal. unfold lsum. cbn [fold_right]. ring. }
  assert (NP : forall (l : list X) (l' : list Y), NoDup l -> NoDup l' -> NoDup (list_prod l l')).
  { intros l l' N N'. induction N as [|x l Hx N IH]; cbn [list_prod]; [constructor|]. apply NoDup_app; [apply NoDup_map_inj; [congruence|exact N']|exact IH|].
    intros [a b] H H'. apply in_map_iff in H. destruct H as (? & E & _). apply in_prod_iff in H'. assert (a = x) by congruence. subst a. tauto. }
  assert (F0 : 0 <= F) by (apply (total_le dx f F [] TF); constructor). assert (G0 : 0 <= G) by (apply (total_le dy g G [] TG); constructor). split.
  - intros x (l & N & Dl & ->). rewrite Forall_forall in Dl. set (l1 := nodup ex (map fst l)). set (l2 := nodup ey (map snd l)).
    apply Rle_trans with (lsum (fun p => f (fst p) * g (snd p)) (list_prod l1 l2)).
    + apply lsum_incl; [decide equality|intros p; apply Rmult_le_pos; [apply Pf|apply Pg]|exact N|]. intros [a b] H. left. apply in_prod; apply nodup_In, in_map_iff; exists (a, b); split; (reflexivity || exact H).
    + rewrite LP. apply Rmult_le_compat; [apply lsum_pos, Pf|apply lsum_pos, Pg|apply (total_le dx f); [exact TF|apply NoDup_nodup|]|apply (total_le dy g); [exact TG|apply NoDup_nodup|]];
        apply Forall_forall; intros y Hy; apply nodup_In, in_map_iff in Hy; destruct Hy as (p & <- & Hp); apply (Dl p Hp).
  - intros b Hb. assert (K : forall l, NoDup l -> Forall dx l -> forall l', NoDup l' -> Forall dy l' -> lsum f l * lsum g l' <= b).
    { intros l N Dl l' N' Dl'. rewrite <- LP. apply Hb. exists (list_prod l l'). split; [apply NP; assumption|]. split; [|reflexivity]. rewrite Forall_forall in *. intros [x y] H. apply in_prod_iff in H. cbn [fst snd]. split; [apply Dl|apply Dl']; tauto. }
    assert (b0 : 0 <= b) by (assert (X0 := K [] ltac:(constructor) ltac:(constructor) [] ltac:(constructor) ltac:(constructor)); cbn in X0; lra).
    assert (K1 : forall l, NoDup l -> Forall dx l -> lsum f l * G <= b).
    { intros l N Dl. destruct (Rle_lt_or_eq_dec 0 (lsum f l) (lsum_pos f l Pf)) as [P|E]; [|rewrite <- E; lra]. apply Rmult_le_reg_l with (/ lsum f l); [apply Rinv_0_lt_compat, P|]. rewrite <- Rmult_assoc, Rinv_l, Rmult_1_l by lra.
      apply (total_ub dy g); [exact TG|]. intros l' N' Dl'. apply Rmult_le_reg_l with (lsum f l); [exact P|]. rewrite <- Rmult_assoc, Rinv_r, Rmult_1_l by lra. apply K; assumption. }
    destruct (Rle_lt_or_eq_dec 0 G G0) as [P|E]; [|rewrite <- E; lra]. apply Rmult_le_reg_l with (/ G); [apply Rinv_0_lt_compat, P|]. replace (/ G * (F * G)) with F by (field; lra).
    apply (total_ub dx f); [exact TF|]. intros l N Dl. apply Rmult_le_reg_l with G; [exact P|]. rewrite <- Rmult_assoc, Rinv_r, Rmult_1_l by lra. rewrite Rmult_comm. apply K1; assumption.
Qed.
Lemma total_ext_fun {X} (d : X -> Prop) (f g : X -> R) F : (forall x, f x = g x) -> total d f F -> total d g F.
Proof.
  intros E T. assert (EL : forall L, lsum g L = lsum f L) by (intros L; apply lsum_ext; intros; symmetry; apply E). split.
  - intros r (L & NL & DL & ->). change (lsum g L <= F). rewrite EL. apply (total_le d); assumption.
  - intros b Hb. apply (total_ub d f F b T). intros L NL DL. rewrite <- EL. apply Hb. exists L. auto.
Qed.
Lemma total_all {X} (f : X -> R) F : gtot f F -> total (fun _ => True) f F.
Proof.
  intros T. split.
  - intros r (L & NL & _ & ->). apply (tot_le f F L T NL).
  - intros b Hb. apply (tot_ub f F b T). intros L NL. apply Hb. exists L. split; [exact NL|]. split; [|reflexivity]. apply Forall_forall. intros; exact I.
Qed.
Lemma Rprod_pos l : Forall (fun x => 0 <= x) l -> 0 <= Rprod l.
Proof. induction 1 as [|x l Hx H IH]; [cbn; lra|]. cbn [Rprod fold_right]. apply Rmult_le_pos; assumption. Qed.
Lemma Rprod_map_pos {X} (f : X -> R) l : (forall x, 0 <= f x) -> 0 <= Rprod (map f l).
Proof. intros H. apply Rprod_pos, Forall_forall. intros y Hy. apply in_map_iff in Hy. destruct Hy as (x & <- & _). apply H. Qed.
Lemma total_len {X} (ex : forall x y : X, {x = y} + {x <> y}) (f : X -> R) F : (forall z, 0 <= f z) -> gtot f F -> forall n, total (fun l => length l = n) (fun l => Rprod (map f l)) (F ^ n).
Proof.
  intros Pf T. induction n as [|n IH].
  - replace (F ^ 0) with (lsum (fun l => Rprod (map f l)) [[]]) by (cbn; lra). apply (total_list (list_eq_dec ex)); [constructor; [intros []|constructor]| |intros l; apply Rprod_map_pos, Pf].
    intros l. cbn [In]. destruct l; cbn [length]; split; [reflexivity|left; reflexivity|intros [?|[]]; discriminate|discriminate].
  - assert (P := total_prod ex (list_eq_dec ex) _ _ f (fun l => Rprod (map f l)) F (F ^ n) Pf (fun l => Rprod_map_pos f l Pf) (total_all f F T) IH).
    refine (move_total (fun p : X * list X => True /\ length (snd p) = n) (fun l => length l = S n) (fun p => fst p :: snd p) _ _ _ (fun l => Rprod (map f l)) (F ^ S n) P).
    + intros p [_ Hp]. cbn [length]. f_equal. exact Hp.
    + intros [a u] [b v] _ _ E. cbn [fst snd] in E. congruence.
    + intros [|x l] Hl; [discriminate|]. exists (x, l). cbn [fst snd]. split; [split; [exact I|]|reflexivity]. cbn [length] in Hl. congruence.
Qed.

(** ** the Gaussian weight of a vector as a product *)
Lemma rho_prod k l : Rprod (map (rho1 k) l) = exp (- (k * IZR (sqnorm l))).
Proof.
  induction l as [|x l IH]; [cbn [map Rprod fold_right sqnorm]; rewrite Rmult_0_r, Ropp_0, exp_0; reflexivity|]. cbn [map Rprod fold_right sqnorm]. change (fold_right Rmult 1 (map (rho1 k) l)) with (Rprod (map (rho1 k) l)). rewrite IH. unfold rho1. rewrite <- exp_plus. f_equal.
  change (fold_right (fun x s => x * x + s)%Z 0%Z l) with (sqnorm l). rewrite plus_IZR, mult_IZR. ring.
Qed.
Definition levs (l : list Z) : nat := fold_right (fun z n => (lev z + n)%nat) 0%nat l.
Lemma rho_lev k x l : Rprod (map (fun z => x ^ lev z * rho1 k z) l) = x ^ levs l * exp (- (k * IZR (sqnorm l))).
Proof.
  rewrite <- rho_prod. induction l as [|z l IH]; [cbn; lra|]. cbn [map Rprod fold_right levs]. change (fold_right Rmult 1 (map (fun z => x ^ lev z * rho1 k z) l)) with (Rprod (map (fun z => x ^ lev z * rho1 k z) l)). rewrite IH.
  change (fold_right (fun z n => (lev z + n)%nat) 0%nat l) with (levs l). rewrite pow_add. unfold Rprod. ring.
Qed.
Lemma levs_tot l : stot l = (9 * Z.of_nat (length l) + Z.of_nat (levs l))%Z.
Proof.
  induction l as [|z l IH]; [reflexivity|]. cbn [Spec.tot fold_right length levs]. change (fold_right (fun s t => enc_len s + t)%Z 0%Z l) with (stot l). change (fold_right (fun z n => (lev z + n)%nat) 0%nat l) with (levs l).
  rewrite IH. unfold enc_len, lev. rewrite !Nat2Z.inj_add, Nat2Z.inj_succ, Z2Nat.id by (apply Z.div_pos; lia). lia.
Qed.

(** ** the share of the vectors with a long compressed form *)
Section Share.
Variables (lg : nat) (x mu : R) (need : nat) (share : R).
Notation k := (/ (2 * (sigma_value RF lg * sigma_value RF lg))).
Notation N := (2 ^ lg)%nat.
Hypothesis k0 : / (2 * (18205 / 10000) ^ 2) <= 4 ^ 8 * k.
Hypothesis x1 : 1 <= x.
Hypothesis HM : forall TH, gtot (rho1 k) TH -> forall V, NoDup V -> lsum (fun z => x ^ lev z * rho1 k z) V <= mu * TH.
Hypothesis Hs : mu ^ N <= share * x ^ need.
Variable len : Z.
Hypothesis Hn : (9 * Z.of_nat N + Z.of_nat need <= len)%Z.
Lemma share_mass WT : total (fun s : list Z * list Z => length (fst s) = N /\ length (snd s) = N) (fun s => wts lg s) WT ->
  forall L, NoDup L -> Forall (fun s => (length (fst s) = N /\ length (snd s) = N) /\ (len <= stot (snd s))%Z) L -> lsum (fun s => wts lg s) L <= share * WT.
Proof.
  intros TW L NL DL. destruct (th_exn 8 k 0 k0) as [TH HT]. unfold th in HT.
  assert (HT1 : gtot (rho1 k) TH) by (eapply tot_ext; [|exact HT]; intros z; unfold rho1; cbv beta; rewrite Rminus_0_r; reflexivity).
  assert (P1 : forall z, 0 <= rho1 k z) by (intros z; left; apply exp_pos). assert (TH0 := tot_pos _ _ HT1).
  assert (P2 : forall z, 0 <= x ^ lev z * rho1 k z) by (intros z; apply Rmult_le_pos; [apply pow_le; lra|apply P1]).
  destruct (total_ex (fun _ : Z => True) (fun z => x ^ lev z * rho1 k z) (mu * TH)) as [M HM1]; [intros l Nl _; apply HM; assumption|].
  assert (HM2 : gtot (fun z => x ^ lev z * rho1 k z) M).
  { split; [intros r (l & Nl & ->); apply (total_le _ _ _ l HM1 Nl); apply Forall_forall; intros; exact I|]. intros b Hb. apply (total_ub _ _ _ b HM1). intros l Nl _. apply Hb. exists l. auto. }
  assert (M0 := tot_pos _ _ HM2). assert (MB : M <= mu * TH) by (apply (tot_ub _ _ _ HM2); intros l Nl; apply HM; assumption).
  assert (T1 := total_len Z.eq_dec _ _ P1 HT1 N). assert (T2 := total_len Z.eq_dec _ _ P2 HM2 N).
  assert (A1 := total_prod (list_eq_dec Z.eq_dec) (list_eq_dec Z.eq_dec) _ _ _ _ _ _ (fun l => Rprod_map_pos _ l P1) (fun l => Rprod_map_pos _ l P1) T1 T1).
  assert (A2 := total_prod (list_eq_dec Z.eq_dec) (list_eq_dec Z.eq_dec) _ _ _ _ _ _ (fun l => Rprod_map_pos _ l P1) (fun l => Rprod_map_pos _ l P2) T1 T2).
  assert (EW : forall s, wts lg s = Rprod (map (rho1 k) (fst s)) * Rprod (map (rho1 k) (snd s))).
  { intros s. rewrite !rho_prod, <- exp_plus. f_equal. rewrite plus_IZR. unfold Rdiv. ring. }
  assert (EWT : WT = TH ^ N * TH ^ N).
  { refine (total_unique _ _ _ _ TW _). eapply total_ext_fun; [|exact A1]. intros s. symmetry. apply EW. }
  assert (xn : 0 < x ^ need) by (apply pow_lt; lra).
  apply Rmult_le_reg_l with (x ^ need); [exact xn|]. rewrite <- lsum_scl.
  apply Rle_trans with (lsum (fun s => Rprod (map (rho1 k) (fst s)) * Rprod (map (fun z => x ^ lev z * rho1 k z) (snd s))) L).
  - apply lsum_le_in. intros s Hs'. rewrite Forall_forall in DL. destruct (DL s Hs') as [[L1 L2] Hb]. rewrite EW, rho_lev, <- (rho_prod k (snd s)).
    assert (Hl : (need <= levs (snd s))%nat) by (rewrite levs_tot, L2 in Hb; lia).
    replace (x ^ need * (Rprod (map (rho1 k) (fst s)) * Rprod (map (rho1 k) (snd s)))) with (Rprod (map (rho1 k) (fst s)) * (x ^ need * Rprod (map (rho1 k) (snd s)))) by ring.
    apply Rmult_le_compat_l; [apply Rprod_map_pos, P1|]. apply Rmult_le_compat_r; [apply Rprod_map_pos, P1|]. apply Rle_pow; assumption.
  - eapply Rle_trans; [apply (total_le _ _ _ L A2 NL); eapply Forall_impl; [|exact DL]; intros s H; apply H|].
    rewrite EWT. assert (TN : 0 <= TH ^ N) by (apply pow_le; exact TH0). assert (B1 : M ^ N <= (mu * TH) ^ N) by (apply pow_incr; split; assumption). rewrite Rpow_mult_distr in B1.
    apply Rle_trans with (TH ^ N * (mu ^ N * TH ^ N)); [apply Rmult_le_compat_l; assumption|].
    replace (TH ^ N * (mu ^ N * TH ^ N)) with (mu ^ N * (TH ^ N * TH ^ N)) by ring. replace (x ^ need * (share * (TH ^ N * TH ^ N))) with (share * x ^ need * (TH ^ N * TH ^ N)) by ring.
    apply Rmult_le_compat_r; [apply Rmult_le_pos; assumption|exact Hs].
Qed.
End Share.

(** ** the two parameter sets *)
Definition unfit (lg : nat) : R := if Nat.eqb lg 9 then 1 / 200000 else 1 / 80.
Lemma pow_8 a b c n : 0 <= a -> a ^ n <= c * b -> 0 <= b -> 0 <= c -> a ^ (n * 8) <= c ^ 8 * b ^ 8.
Proof. intros A H B C. rewrite pow_mult, <- Rpow_mult_distr. apply pow_incr. split; [apply pow_le; exact A|exact H]. Qed.
Lemma share_9 : (119357 / 100000) ^ 512 <= (1 / 200000) * (13 / 10) ^ 392.
Proof.
  set (m := (119357 / 100000)). set (x := (13 / 10)). assert (m1 : m = (119357 / 100000)) by reflexivity. assert (x1 : x = (13 / 10)) by reflexivity. clearbody m x.
  assert (m2 : m ^ 2 <= (14246093449 / 10000000000)). { replace (m ^ 2) with (m * m) by ring. apply Rle_trans with ((119357 / 100000) * (119357 / 100000)); [apply Rmult_le_compat; [try apply pow_le; lra|try apply pow_le; lra|lra|lra]|lra]. }
  assert (m4 : m ^ 4 <= (634222433 / 312500000)). { replace (m ^ 4) with (m ^ 2 * m ^ 2) by ring. apply Rle_trans with ((14246093449 / 10000000000) * (14246093449 / 10000000000)); [apply Rmult_le_compat; [try apply pow_le; lra|try apply pow_le; lra|lra|lra]|lra]. }
  assert (m8 : m ^ 8 <= (41189180879 / 10000000000)). { replace (m ^ 8) with (m ^ 4 * m ^ 4) by ring. apply Rle_trans with ((634222433 / 312500000) * (634222433 / 312500000)); [apply Rmult_le_compat; [try apply pow_le; lra|try apply pow_le; lra|lra|lra]|lra]. }
  assert (m16 : m ^ 16 <= (169654862149 / 10000000000)). { replace (m ^ 16) with (m ^ 8 * m ^ 8) by ring. apply Rle_trans with ((41189180879 / 10000000000) * (41189180879 / 10000000000)); [apply Rmult_le_compat; [try apply pow_le; lra|try apply pow_le; lra|lra|lra]|lra]. }
  assert (m32 : m ^ 32 <= (71956930627 / 250000000)). { replace (m ^ 32) with (m ^ 16 * m ^ 16) by ring. apply Rle_trans with ((169654862149 / 10000000000) * (169654862149 / 10000000000)); [apply Rmult_le_compat; [try apply pow_le; lra|try apply pow_le; lra|lra|lra]|lra]. }
  assert (m64 : m ^ 64 <= (828447978441423 / 10000000000)). { replace (m ^ 64) with (m ^ 32 * m ^ 32) by ring. apply Rle_trans with ((71956930627 / 250000000) * (71956930627 / 250000000)); [apply Rmult_le_compat; [try apply pow_le; lra|try apply pow_le; lra|lra|lra]|lra]. }
  assert (x2 : (169 / 100) <= x ^ 2). { replace (x ^ 2) with (x * x) by ring. apply Rle_trans with ((13 / 10) * (13 / 10)); [lra|apply Rmult_le_compat; lra]. }
  assert (x3 : (2197 / 1000) <= x ^ 3). { replace (x ^ 3) with (x ^ 2 * x) by ring. apply Rle_trans with ((169 / 100) * (13 / 10)); [lra|apply Rmult_le_compat; lra]. }
  assert (x6 : (4826809 / 1000000) <= x ^ 6). { replace (x ^ 6) with (x ^ 3 * x ^ 3) by ring. apply Rle_trans with ((2197 / 1000) * (2197 / 1000)); [lra|apply Rmult_le_compat; lra]. }
  assert (x12 : (29122606403 / 1250000000) <= x ^ 12). { replace (x ^ 12) with (x ^ 6 * x ^ 6) by ring. apply Rle_trans with ((4826809 / 1000000) * (4826809 / 1000000)); [lra|apply Rmult_le_compat; lra]. }
  assert (x24 : (1085601540741 / 2000000000) <= x ^ 24). { replace (x ^ 24) with (x ^ 12 * x ^ 12) by ring. apply Rle_trans with ((29122606403 / 1250000000) * (29122606403 / 1250000000)); [lra|apply Rmult_le_compat; lra]. }
  assert (x48 : (1473163381574041 / 5000000000) <= x ^ 48). { replace (x ^ 48) with (x ^ 24 * x ^ 24) by ring. apply Rle_trans with ((1085601540741 / 2000000000) * (1085601540741 / 2000000000)); [lra|apply Rmult_le_compat; lra]. }
  assert (x49 : (1915112396046253 / 5000000000) <= x ^ 49). { replace (x ^ 49) with (x ^ 48 * x) by ring. apply Rle_trans with ((1473163381574041 / 5000000000) * (13 / 10)); [lra|apply Rmult_le_compat; lra]. }
  assert (S : m ^ 64 <= (217 / 1000) * x ^ 49) by lra. assert (XB : 0 <= x ^ 49) by lra.
  change 512%nat with (64 * 8)%nat. change 392%nat with (49 * 8)%nat. eapply Rle_trans; [apply (pow_8 m (x ^ 49) (217 / 1000) 64); lra|]. rewrite <- pow_mult.
  apply Rmult_le_compat_r; [apply pow_le; lra|lra].
Qed.
Lemma share_10 : (107869 / 100000) ^ 1024 <= (1 / 80) * (9 / 8) ^ 696.
Proof.
  set (m := (107869 / 100000)). set (x := (9 / 8)). assert (m1 : m = (107869 / 100000)) by reflexivity. assert (x1 : x = (9 / 8)) by reflexivity. clearbody m x.
  assert (m2 : m ^ 2 <= (11635721161 / 10000000000)). { replace (m ^ 2) with (m * m) by ring. apply Rle_trans with ((107869 / 100000) * (107869 / 100000)); [apply Rmult_le_compat; [try apply pow_le; lra|try apply pow_le; lra|lra|lra]|lra]. }
  assert (m4 : m ^ 4 <= (6769500347 / 5000000000)). { replace (m ^ 4) with (m ^ 2 * m ^ 2) by ring. apply Rle_trans with ((11635721161 / 10000000000) * (11635721161 / 10000000000)); [apply Rmult_le_compat; [try apply pow_le; lra|try apply pow_le; lra|lra|lra]|lra]. }
  assert (m8 : m ^ 8 <= (916522699 / 500000000)). { replace (m ^ 8) with (m ^ 4 * m ^ 4) by ring. apply Rle_trans with ((6769500347 / 5000000000) * (6769500347 / 5000000000)); [apply Rmult_le_compat; [try apply pow_le; lra|try apply pow_le; lra|lra|lra]|lra]. }
  assert (m16 : m ^ 16 <= (4200069289 / 1250000000)). { replace (m ^ 16) with (m ^ 8 * m ^ 8) by ring. apply Rle_trans with ((916522699 / 500000000) * (916522699 / 500000000)); [apply Rmult_le_compat; [try apply pow_le; lra|try apply pow_le; lra|lra|lra]|lra]. }
  assert (m32 : m ^ 32 <= (7056232813 / 625000000)). { replace (m ^ 32) with (m ^ 16 * m ^ 16) by ring. apply Rle_trans with ((4200069289 / 1250000000) * (4200069289 / 1250000000)); [apply Rmult_le_compat; [try apply pow_le; lra|try apply pow_le; lra|lra|lra]|lra]. }
  assert (m64 : m ^ 64 <= (1274634790689 / 10000000000)). { replace (m ^ 64) with (m ^ 32 * m ^ 32) by ring. apply Rle_trans with ((7056232813 / 625000000) * (7056232813 / 625000000)); [apply Rmult_le_compat; [try apply pow_le; lra|try apply pow_le; lra|lra|lra]|lra]. }
  assert (m128 : m ^ 128 <= (4061734624087 / 250000000)). { replace (m ^ 128) with (m ^ 64 * m ^ 64) by ring. apply Rle_trans with ((1274634790689 / 10000000000) * (1274634790689 / 10000000000)); [apply Rmult_le_compat; [try apply pow_le; lra|try apply pow_le; lra|lra|lra]|lra]. }
  assert (x2 : (81 / 64) <= x ^ 2). { replace (x ^ 2) with (x * x) by ring. apply Rle_trans with ((9 / 8) * (9 / 8)); [lra|apply Rmult_le_compat; lra]. }
  assert (x4 : (8009033203 / 5000000000) <= x ^ 4). { replace (x ^ 4) with (x ^ 2 * x ^ 2) by ring. apply Rle_trans with ((81 / 64) * (81 / 64)); [lra|apply Rmult_le_compat; lra]. }
  assert (x5 : (9010162353 / 5000000000) <= x ^ 5). { replace (x ^ 5) with (x ^ 4 * x) by ring. apply Rle_trans with ((8009033203 / 5000000000) * (9 / 8)); [lra|apply Rmult_le_compat; lra]. }
  assert (x10 : (129892841 / 40000000) <= x ^ 10). { replace (x ^ 10) with (x ^ 5 * x ^ 5) by ring. apply Rle_trans with ((9010162353 / 5000000000) * (9010162353 / 5000000000)); [lra|apply Rmult_le_compat; lra]. }
  assert (x20 : (52725469197 / 5000000000) <= x ^ 20). { replace (x ^ 20) with (x ^ 10 * x ^ 10) by ring. apply Rle_trans with ((129892841 / 40000000) * (129892841 / 40000000)); [lra|apply Rmult_le_compat; lra]. }
  assert (x21 : (118632305693 / 10000000000) <= x ^ 21). { replace (x ^ 21) with (x ^ 20 * x) by ring. apply Rle_trans with ((52725469197 / 5000000000) * (9 / 8)); [lra|apply Rmult_le_compat; lra]. }
  assert (x42 : (1407362395403 / 10000000000) <= x ^ 42). { replace (x ^ 42) with (x ^ 21 * x ^ 21) by ring. apply Rle_trans with ((118632305693 / 10000000000) * (118632305693 / 10000000000)); [lra|apply Rmult_le_compat; lra]. }
  assert (x43 : (395820673707 / 2500000000) <= x ^ 43). { replace (x ^ 43) with (x ^ 42 * x) by ring. apply Rle_trans with ((1407362395403 / 10000000000) * (9 / 8)); [lra|apply Rmult_le_compat; lra]. }
  assert (x86 : (250678409174181 / 10000000000) <= x ^ 86). { replace (x ^ 86) with (x ^ 43 * x ^ 43) by ring. apply Rle_trans with ((395820673707 / 2500000000) * (395820673707 / 2500000000)); [lra|apply Rmult_le_compat; lra]. }
  assert (x87 : (282013210320953 / 10000000000) <= x ^ 87). { replace (x ^ 87) with (x ^ 86 * x) by ring. apply Rle_trans with ((250678409174181 / 10000000000) * (9 / 8)); [lra|apply Rmult_le_compat; lra]. }
  assert (S : m ^ 128 <= (289 / 500) * x ^ 87) by lra. assert (XB : 0 <= x ^ 87) by lra.
  change 1024%nat with (128 * 8)%nat. change 696%nat with (87 * 8)%nat. eapply Rle_trans; [apply (pow_8 m (x ^ 87) (289 / 500) 128); lra|]. rewrite <- pow_mult.
  apply Rmult_le_compat_r; [apply pow_le; lra|lra].
Qed.

Lemma unfit_mass lg : falcon_lg lg -> forall WT, total (fun s : list Z * list Z => length (fst s) = (2 ^ lg)%nat /\ length (snd s) = (2 ^ lg)%nat) (fun s => wts lg s) WT ->
  forall L, NoDup L -> Forall (fun s => (length (fst s) = (2 ^ lg)%nat /\ length (snd s) = (2 ^ lg)%nat) /\ (body_len lg <= stot (snd s))%Z) L -> lsum (fun s => wts lg s) L <= unfit lg * WT.
Proof.
  intros [-> | ->].
  - apply (share_mass 9 (13 / 10) (119357 / 100000) 392 (1 / 200000)).
    + rewrite P_leaf.sigma_9. lra.
    + lra.
    + intros TH HT. exact (moment_9 TH HT).
    + exact share_9.
    + vm_compute. discriminate.
  - apply (share_mass 10 (9 / 8) (107869 / 100000) 696 (1 / 80)).
    + rewrite P_leaf.sigma_10. lra.
    + lra.
    + intros TH HT. exact (moment_10 TH HT).
    + exact share_10.
    + vm_compute. discriminate.
Qed.
(** the compressed form leaves less than 17 bits *)
Definition tight (lg : nat) : R := if Nat.eqb lg 9 then 1 / 3000 else 1 / 12.
Lemma tight_mass lg : falcon_lg lg -> forall WT, total (fun s : list Z * list Z => length (fst s) = (2 ^ lg)%nat /\ length (snd s) = (2 ^ lg)%nat) (fun s => wts lg s) WT ->
  forall L, NoDup L -> Forall (fun s => (length (fst s) = (2 ^ lg)%nat /\ length (snd s) = (2 ^ lg)%nat) /\ (body_len lg - 16 <= stot (snd s))%Z) L -> lsum (fun s => wts lg s) L <= tight lg * WT.
Proof.
  intros [-> | ->].
  - apply (share_mass 9 (13 / 10) (119357 / 100000) 376 (1 / 3000)).
    + rewrite P_leaf.sigma_9. lra.
    + lra.
    + intros TH HT. exact (moment_9 TH HT).
    + eapply Rle_trans; [exact share_9|]. replace 392%nat with (16 + 376)%nat by reflexivity. rewrite pow_add, <- Rmult_assoc. apply Rmult_le_compat_r; [apply pow_le; lra|lra].
    + vm_compute. discriminate.
  - apply (share_mass 10 (9 / 8) (107869 / 100000) 680 (1 / 12)).
    + rewrite P_leaf.sigma_10. lra.
    + lra.
    + intros TH HT. exact (moment_10 TH HT).
    + eapply Rle_trans; [exact share_10|]. replace 696%nat with (16 + 680)%nat by reflexivity. rewrite pow_add, <- Rmult_assoc. apply Rmult_le_compat_r; [apply pow_le; lra|lra].
    + vm_compute. discriminate.
Qed.
Lemma pair_total lg : falcon_lg lg -> exists WT, 0 < WT /\ total (fun s : list Z * list Z => length (fst s) = (2 ^ lg)%nat /\ length (snd s) = (2 ^ lg)%nat) (fun s => wts lg s) WT.
Proof.
  intros Hlg. set (k := / (2 * (sigma_value RF lg * sigma_value RF lg))).
  assert (k0 : / (2 * (18205 / 10000) ^ 2) <= 4 ^ 8 * k) by (unfold k; destruct Hlg as [-> | ->]; [rewrite P_leaf.sigma_9|rewrite P_leaf.sigma_10]; lra).
  destruct (th_exn 8 k 0 k0) as [TH HT]. unfold th in HT.
  assert (HT1 : gtot (rho1 k) TH) by (eapply tot_ext; [|exact HT]; intros z; unfold rho1; cbv beta; rewrite Rminus_0_r; reflexivity).
  assert (P1 : forall z, 0 <= rho1 k z) by (intros z; left; apply exp_pos). assert (T1 := total_len Z.eq_dec _ _ P1 HT1 (2 ^ lg)).
  assert (A1 := total_prod (list_eq_dec Z.eq_dec) (list_eq_dec Z.eq_dec) _ _ _ _ _ _ (fun l => Rprod_map_pos _ l P1) (fun l => Rprod_map_pos _ l P1) T1 T1).
  exists (TH ^ (2 ^ lg) * TH ^ (2 ^ lg)). split.
  - assert (TH0 : 0 < TH). { apply Rlt_le_trans with (lsum (rho1 k) [0%Z]); [unfold lsum; cbn [fold_right]; rewrite Rplus_0_r; apply exp_pos|]. apply (tot_le _ _ _ HT1). constructor; [intros []|constructor]. }
    apply Rmult_lt_0_compat; apply pow_lt; exact TH0.
  - eapply total_ext_fun; [|exact A1]. intros s. cbv beta. rewrite !rho_prod, <- exp_plus. f_equal. rewrite plus_IZR. unfold k, Rdiv. ring.
Qed.
Lemma unfit_share lg : falcon_lg lg -> exists W WU, 0 < W /\ total (fun s : list Z * list Z => length (fst s) = (2 ^ lg)%nat /\ length (snd s) = (2 ^ lg)%nat) (fun s => wts lg s) W /\
  total (fun s : list Z * list Z => (length (fst s) = (2 ^ lg)%nat /\ length (snd s) = (2 ^ lg)%nat) /\ (body_len lg <= stot (snd s))%Z) (fun s => wts lg s) WU /\ WU <= unfit lg * W.
Proof.
  intros Hlg. destruct (pair_total lg Hlg) as (W & W0 & TW). destruct (total_ex (fun s : list Z * list Z => (length (fst s) = (2 ^ lg)%nat /\ length (snd s) = (2 ^ lg)%nat) /\ (body_len lg <= stot (snd s))%Z) (fun s => wts lg s) (unfit lg * W)) as [WU HU].
  - exact (unfit_mass lg Hlg W TW).
  - exists W, WU. split; [exact W0|]. split; [exact TW|]. split; [exact HU|]. apply (total_ub _ _ _ _ HU). exact (unfit_mass lg Hlg W TW).
Qed.
Lemma unfit_example : let s := (repeat 0%Z 512, repeat 128%Z 512) in length (fst s) = 512%nat /\ length (snd s) = 512%nat /\ (body_len 9 <= stot (snd s))%Z.
Proof. cbv zeta. cbn [fst snd]. split; [apply repeat_length|]. split; [apply repeat_length|]. vm_compute. discriminate. Qed.
