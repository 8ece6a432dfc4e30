(** P_jprob.v -- joint distribution of the samples of a run against the product of discrete Gaussians. *)
From Verif Require Import Base Spec SpecR SpecG M_float M_exact M_samp P_gauss P_prob P_dist P_joint P_gsum P_prog.
From Verif Require P_exact P_sampz P_dist64.
From Coq Require Import Reals Lra.
Open Scope R_scope.
Notation ind := P_prob.ind.

Lemma lub_unique E x y : is_lub E x -> is_lub E y -> x = y.
Proof. intros [U L] [U' L']. apply Rle_antisym; [apply L, U'|apply L', U]. Qed.

Lemma pow_le1 x n : 0 <= x <= 1 -> x ^ n <= 1.
Proof. intros H. apply Rle_trans with (1 ^ n); [apply pow_incr; exact H|rewrite pow1; apply Rle_refl]. Qed.

(** ** one call *)
Section One.
Variables c s m : R.
Hypotheses (Hm : 1 <= m) (Hms : m <= s) (Hs : s <= 18205 / 10000).
Notation fl := (Rfloor c).
Variable th : nat -> Z -> Z.
Hypothesis TR : forall z0 b, (z0 < 19)%nat -> (b = 0 \/ b = 1)%Z -> (0 <= th z0 b < 2 ^ 64)%Z.
Hypothesis TB : forall z0 b, (z0 < 19)%nat -> (b = 0 \/ b = 1)%Z ->
  let x := (IZR (zsigned z0 b) - (c - IZR fl)) ^ 2 / (2 * s ^ 2) - INR z0 ^ 2 / (2 * (18205 / 10000) ^ 2) in
  0 <= x /\ Rabs (IZR (th z0 b) / 2 ^ 64 - m / s * exp (- x)) <= / 2 ^ 39 * exp (- x) + / 2 ^ 63.
Notation P v := (pv th fl v / pa th).
Notation I v := (rho s c (IZR v) / gsum s c).
Lemma Hs1 : 1 <= s. Proof. lra. Qed.
Lemma one_close : 1 / 12 <= pa th <= 1 /\ forall v, Rabs (P v - I v) <= / 2 ^ 36 * I v + / 2 ^ 59.
Proof.
  destruct (dist_all c s m Hm Hms Hs th TR TB) as (Gm & Gp & C1 & C2 & PA & D). split; [exact PA|]. destruct (gsum_ok c s Hs1 Hs) as (G & _).
  rewrite (lub_unique _ _ _ G (two_sides c s Gm Gp C1 C2)). exact D.
Qed.
Lemma pdt_pos i : (i < 19)%nat -> 0 <= IZR (nth i pdt 0%Z) / 2 ^ 72.
Proof. intros Hi. apply Rmult_le_pos; [|left; apply Rinv_0_lt_compat, pow_lt; lra]. apply (IZR_le 0). assert (F : Forall (fun x => 0 <= x)%Z pdt) by (repeat constructor; discriminate). rewrite Forall_forall in F. apply F, nth_In. cbn. lia. Qed.
Lemma qq_pos i b : (i < 19)%nat -> (b = 0 \/ b = 1)%Z -> 0 <= qq th i b.
Proof.
  intros Hi Hb. unfold qq. assert (A := pdt_pos i Hi). assert (B : 0 <= IZR (th i b) / 2 ^ 64). { apply Rmult_le_pos; [|left; apply Rinv_0_lt_compat, pow_lt; lra]. apply (IZR_le 0). apply TR; assumption. }
  assert (0 <= IZR (nth i pdt 0%Z) / 2 ^ 72 * (IZR (th i b) / 2 ^ 64)) by (apply Rmult_le_pos; assumption). lra.
Qed.
Lemma pv_left i : pv th fl (fl - Z.of_nat i)%Z = if (i <? 19)%nat then qq th i 0 else 0.
Proof.
  destruct (Nat.ltb_spec i 19) as [Hi|Hi]; [|apply pv_out; lia]. rewrite <- (pv_at c th i 0 Hi ltac:(lia)). unfold zsigned. cbn [Z.eqb]. f_equal.
Qed.
Lemma pv_right i : pv th fl (fl + 1 + Z.of_nat i)%Z = if (i <? 19)%nat then qq th i 1 else 0.
Proof.
  destruct (Nat.ltb_spec i 19) as [Hi|Hi]; [|apply pv_out; lia]. rewrite <- (pv_at c th i 1 Hi ltac:(lia)). unfold zsigned. cbn [Z.eqb Pos.eqb]. f_equal. lia.
Qed.
Lemma P_pos v : 0 <= P v.
Proof.
  destruct one_close as [PA _]. apply Rmult_le_pos; [|left; apply Rinv_0_lt_compat; lra]. destruct (Z.le_gt_cases v fl).
  - replace v with (fl - Z.of_nat (Z.to_nat (fl - v)))%Z by lia. rewrite pv_left. destruct (Nat.ltb_spec (Z.to_nat (fl - v)) 19); [apply qq_pos; [assumption|lia]|lra].
  - replace v with (fl + 1 + Z.of_nat (Z.to_nat (v - fl - 1)))%Z by lia. rewrite pv_right. destruct (Nat.ltb_spec (Z.to_nat (v - fl - 1)) 19); [apply qq_pos; [assumption|lia]|lra].
Qed.
Lemma P_out v : ~ (-18 <= v - fl <= 19)%Z -> P v = 0.
Proof. intros H. rewrite pv_out by exact H. unfold Rdiv. ring. Qed.
Lemma rsum_cut n f : (19 <= n)%nat -> rsum n (fun i => if (i <? 19)%nat then f i else 0) = rsum 19 f.
Proof.
  intros Hn. replace n with (19 + (n - 19))%nat by lia. rewrite rsum_app. rewrite (rsum_ext (n - 19) _ (fun _ => 0)); [|intros i _; destruct (Nat.ltb_spec (19 + i) 19); [lia|reflexivity]].
  rewrite rsum_const, Rmult_0_r, Rplus_0_r. apply rsum_ext. intros i Hi. destruct (Nat.ltb_spec i 19); [reflexivity|lia].
Qed.
Lemma P_sum M : (18 <= M)%nat -> lsum (fun v => P v) (vals M fl) = 1.
Proof.
  intros HM. destruct one_close as [PA _]. rewrite (lsum_ext _ (fun v => / pa th * pv th fl v)) by (intros; unfold Rdiv; ring). rewrite lsum_scal, lsum_vals.
  rewrite (rsum_ext (S M) _ _ (fun i _ => pv_left i)), (rsum_ext (S M) _ _ (fun i _ => pv_right i)), !rsum_cut, <- pa_qq by lia. field. lra.
Qed.
Lemma I_pos v : 0 <= I v.
Proof. destruct (gsum_ok c s Hs1 Hs) as (_ & H & _). apply Rmult_le_pos; [left; apply rho_pos|left; apply Rinv_0_lt_compat; lra]. Qed.
Lemma I_sum l : NoDup l -> lsum (fun v => I v) l <= 1.
Proof.
  intros ND. destruct (gsum_ok c s Hs1 Hs) as ([U _] & H & _). rewrite (lsum_ext _ (fun v => / gsum s c * rho s c (IZR v))) by (intros; unfold Rdiv; ring). rewrite lsum_scal.
  apply (Rmult_le_reg_l (gsum s c)); [lra|]. rewrite <- Rmult_assoc, Rinv_r, Rmult_1_l, Rmult_1_r by lra. apply U. exists l. split; [exact ND|reflexivity].
Qed.
Lemma one_tv0 M : (18 <= M)%nat -> lsum (fun v => Rabs (P v - I v)) (vals M fl) <= / 2 ^ 35.
Proof.
  intros HM. destruct (gsum_ok c s Hs1 Hs) as (_ & G0 & GT). destruct one_close as [PA D].
  set (inw := fun v => ind ((-18 <=? v - fl)%Z && (v - fl <=? 19)%Z)).
  apply Rle_trans with (lsum (fun v => / 2 ^ 36 * I v + (/ 2 ^ 59 * inw v + (1 - inw v) * I v)) (vals M fl)).
  - apply lsum_le. intros v _. assert (Iv := I_pos v). assert (E : 0 <= / 2 ^ 36 * I v) by (apply Rmult_le_pos; [left; apply Rinv_0_lt_compat, pow_lt; lra|exact Iv]).
    unfold inw. destruct (Z.leb_spec (-18) (v - fl)), (Z.leb_spec (v - fl) 19); cbn [andb ind].
    + eapply Rle_trans; [apply D|]. lra.
    + rewrite P_out by lia. rewrite Rminus_0_l, Rabs_Ropp, Rabs_pos_eq by exact Iv. lra.
    + rewrite P_out by lia. rewrite Rminus_0_l, Rabs_Ropp, Rabs_pos_eq by exact Iv. lra.
    + rewrite P_out by lia. rewrite Rminus_0_l, Rabs_Ropp, Rabs_pos_eq by exact Iv. lra.
  - rewrite !lsum_plus, !lsum_scal. assert (S1 := I_sum _ (vals_nodup M fl)).
    assert (L : forall j, inw (fl - Z.of_nat j)%Z = ind (j <? 19)%nat). { intros j. unfold inw. f_equal. apply Bool.eq_iff_eq_true. rewrite Bool.andb_true_iff, !Z.leb_le, Nat.ltb_lt. lia. }
    assert (Rr : forall j, inw (fl + 1 + Z.of_nat j)%Z = ind (j <? 19)%nat). { intros j. unfold inw. f_equal. apply Bool.eq_iff_eq_true. rewrite Bool.andb_true_iff, !Z.leb_le, Nat.ltb_lt. lia. }
    assert (S2 : lsum inw (vals M fl) = 38).
    { rewrite lsum_vals. rewrite (rsum_ext (S M) _ _ (fun j _ => L j)), (rsum_ext (S M) _ _ (fun j _ => Rr j)).
      rewrite (rsum_ext (S M) (fun i => ind (i <? 19)%nat) (fun i => if (i <? 19)%nat then 1 else 0)) by reflexivity. rewrite rsum_cut, rsum_const by lia. simpl. lra. }
    assert (S3 : lsum (fun v => (1 - inw v) * I v) (vals M fl) <= / 2 ^ 75).
    { assert (E1 : lsum (fun v => (1 - inw v) * I v) (vals M fl) = lsum (fun v => I v) (vals M fl) - lsum (fun v => I v) (vals 18 fl)).
      { rewrite (lsum_ext _ (fun v => I v + (-1) * (inw v * I v))) by (intros; ring). rewrite lsum_plus, lsum_scal. enough (X : lsum (fun v => inw v * I v) (vals M fl) = lsum (fun v => I v) (vals 18 fl)) by (rewrite X; ring).
        rewrite !lsum_vals. assert (C : forall f : nat -> R, rsum (S M) (fun j => ind (j <? 19)%nat * f j) = rsum 19 f).
        { intros f. rewrite (rsum_ext (S M) _ (fun i => if (i <? 19)%nat then f i else 0)); [apply rsum_cut; lia|]. intros i _. destruct (i <? 19)%nat; cbn [ind]; ring. }
        f_equal; [rewrite <- (C (fun j => I (fl - Z.of_nat j)%Z))|rewrite <- (C (fun j => I (fl + 1 + Z.of_nat j)%Z))]; apply rsum_ext; intros j _; [rewrite L|rewrite Rr]; reflexivity. }
      rewrite E1. assert (E2 : lsum (fun v => I v) (vals 18 fl) = / gsum s c * lsum (fun v => rho s c (IZR v)) (vals 18 fl)).
      { rewrite <- lsum_scal. apply lsum_ext. intros; unfold Rdiv; ring. }
      assert (E3 : 1 - / 2 ^ 75 <= lsum (fun v => I v) (vals 18 fl)).
      { rewrite E2. apply (Rmult_le_reg_l (gsum s c)); [lra|]. rewrite <- Rmult_assoc, Rinv_r, Rmult_1_l by lra. eapply Rle_trans; [|exact GT].
        assert (E75 : / 2 ^ 75 = 2 * / 2 ^ 76) by (simpl; field). assert (0 < / 2 ^ 76) by (apply Rinv_0_lt_compat, pow_lt; lra). rewrite E75. set (e := / 2 ^ 76) in *. assert (1 / 2 * e <= gsum s c * e) by (apply Rmult_le_compat_r; lra). lra. }
      lra. }
    rewrite S2. assert (/ 2 ^ 35 = 2 * / 2 ^ 36) by (simpl; field). assert (/ 2 ^ 36 = 2 ^ 23 * / 2 ^ 59) by (simpl; field). assert (/ 2 ^ 59 = 65536 * / 2 ^ 75) by (simpl; field).
    assert (0 < / 2 ^ 75) by (apply Rinv_0_lt_compat, pow_lt; lra). replace (2 ^ 23) with 8388608 in * by (simpl; lra).
    assert (/ 2 ^ 36 * lsum (fun v => I v) (vals M fl) <= / 2 ^ 36 * 1) by (apply Rmult_le_compat_l; lra). lra.
Qed.
Lemma one_tv M k : (18 <= M)%nat -> lsum (fun v => Rabs (P v * (1 - (1 - pa th) ^ k) - I v)) (vals M fl) <= / 2 ^ 35 + (11 / 12) ^ k.
Proof.
  intros HM. destruct one_close as [PA D]. assert (T := one_tv0 M HM). assert (U := P_sum M HM).
  assert (A : 0 <= (1 - pa th) ^ k) by (apply pow_le; lra). assert (B : (1 - pa th) ^ k <= (11 / 12) ^ k) by (apply pow_incr; lra).
  apply Rle_trans with (lsum (fun v => Rabs (P v - I v) + (1 - pa th) ^ k * P v) (vals M fl)).
  - apply lsum_le. intros v _. replace (P v * (1 - (1 - pa th) ^ k) - I v) with ((P v - I v) + (- ((1 - pa th) ^ k * P v))) by ring.
    eapply Rle_trans; [apply Rabs_triang|]. rewrite Rabs_Ropp, (Rabs_pos_eq ((1 - pa th) ^ k * P v)) by (apply Rmult_le_pos; [exact A|apply P_pos]). lra.
  - rewrite lsum_plus, lsum_scal, U. lra.
Qed.
End One.

(** ** programs *)
Section Run.
Variables (F : fops) (smin : D F) (ct sd : D F -> R) (thf : D F -> D F -> nat -> Z -> Z).
Notation C := (D F * D F * Z)%type.
Definition flo (mu : D F) : Z := Rfloor (ct mu).
Definition PV (mu s : D F) (v : Z) : R := pv (thf mu s) (flo mu) v / pa (thf mu s).
Definition PK (k : nat) (mu s : D F) (v : Z) : R := PV mu s v * (1 - (1 - pa (thf mu s)) ^ k).
Definition IV (mu s : D F) (v : Z) : R := rho (sd s) (ct mu) (IZR v) / gsum (sd s) (ct mu).
(** everything that is known about a call *)
Record lawful (mu s : D F) : Prop := {
  law_th : forall z0 b, (z0 < 19)%nat -> (b = 0 \/ b = 1)%Z -> P_sampz.thr F mu s smin z0 b (thf mu s z0 b);
  law_to : forall z, (-18 <= z <= 19)%Z -> to_i32 F (fadd F (fofz F z) (ffloor F mu)) = Ok (flo mu + z)%Z;
  law_pa : 1 / 12 <= pa (thf mu s) <= 1;
  law_pos : forall v, 0 <= PV mu s v;
  law_out : forall v, ~ (-18 <= v - flo mu <= 19)%Z -> PV mu s v = 0;
  law_sum : forall M, (18 <= M)%nat -> lsum (PV mu s) (vals M (flo mu)) = 1;
  law_tv : forall M k, (18 <= M)%nat -> lsum (fun v => Rabs (PK k mu s v - IV mu s v)) (vals M (flo mu)) <= / 2 ^ 35 + (11 / 12) ^ k
}.
Fixpoint lawp {A} (p : prog F A) : Prop :=
  match p with Ret _ => True | Call mu s c => lawful mu s /\ forall v, (-18 <= v - flo mu <= 19)%Z -> lawp (c v) | Stop _ => False end.
Fixpoint sdp {A} (p : prog F A) : Prop :=
  match p with Ret _ => True | Call mu s c => 1 <= sd s <= 18205 / 10000 /\ forall v, sdp (c v) | Stop _ => False end.
Fixpoint deep {A} (d : nat) (p : prog F A) {struct p} : Prop :=
  match p with Call mu s c => match d with O => False | S d' => forall v, deep d' (c v) end | _ => True end.
(** probability of the values vs, after at most k attempts each; and the same for independent discrete Gaussians *)
Fixpoint pr {A} (k : nat) (p : prog F A) (vs : list Z) : R :=
  match p, vs with Ret _, [] => 1 | Call mu s c, v :: r => PK k mu s v * pr k (c v) r | _, _ => 0 end.
Fixpoint id {A} (p : prog F A) (vs : list Z) : R :=
  match p, vs with Ret _, [] => 1 | Call mu s c, v :: r => IV mu s v * id (c v) r | _, _ => 0 end.
Fixpoint evp {A} (k : nat) (p : prog F A) (vs : list Z) (w : list Z) : R :=
  match p, vs with Ret _, [] => 1 | Call mu s c, v :: r => cont F mu s smin k v (evp k (c v) r) w | _, _ => 0 end.

Lemma stream_byte w : bytes w -> forall i, byte (stream w i).
Proof. intros Hs i. unfold stream. destruct (Nat.lt_ge_cases i (length w)) as [L|L]; [unfold bytes in Hs; rewrite Forall_forall in Hs; apply Hs, nth_In, L|rewrite nth_overflow by exact L; unfold byte; lia]. Qed.
Lemma in_window mu s k w v p : lawful mu s -> bytes w -> samplerz F k mu s smin (stream w) 0 = Ok (v, p) -> (-18 <= v - flo mu <= 19)%Z.
Proof.
  intros L Hw E. destruct (P_sampz.samplerz_range F k mu s smin (stream w) 0 v p (stream_byte w Hw) E) as (_ & z & _ & _ & Hz & T). rewrite (law_to mu s L) in T by exact Hz. assert (v = (flo mu + z)%Z) by congruence. lia.
Qed.
Lemma PK_geom k mu s v : lawful mu s -> pv (thf mu s) (flo mu) v * rsum k (fun j => (1 - pa (thf mu s)) ^ j) = PK k mu s v.
Proof. intros L. assert (PA := law_pa mu s L). unfold PK, PV. rewrite <- P_dist64.geom. field. lra. Qed.
Lemma avg_zero n f : (forall w, length w = n -> bytes w -> f w = 0) -> avg n f = 0.
Proof. intros H. rewrite (avg_ext n f (fun _ => 0)) by exact H. apply avg_const. Qed.
Lemma avg_evp {A} k (p : prog F A) : lawp p -> forall vs n, (18 * k * length vs <= n)%nat -> avg n (evp k p vs) = pr k p vs.
Proof.
  induction p as [a|mu s c IH|b]; intros L vs n Hn; destruct vs as [|v r]; cbn [evp pr]; try (apply avg_const).
  cbn [lawp] in L. destruct L as [L LP]. cbn [length] in Hn.
  destruct (Z_le_dec (-18) (v - flo mu)), (Z_le_dec (v - flo mu) 19).
  - change (avg n (cont F mu s smin k v (evp k (c v) r)) = PK k mu s v * pr k (c v) r).
    rewrite (cont_prob F mu s smin (thf mu s) (flo mu) (law_th _ _ L) (law_to _ _ L) k v _ (pr k (c v) r) (18 * k * length r)).
    + rewrite PK_geom by exact L. ring.
    + intros n' Hn'. apply IH; [apply LP; lia|exact Hn'].
    + lia.
  - rewrite avg_zero; [unfold PK; rewrite (law_out _ _ L) by lia; ring|]. intros w _ Hw. unfold cont. destruct (samplerz F k mu s smin (stream w) 0) as [[v' p']| |] eqn:E; try reflexivity.
    apply (in_window _ _ _ _ _ _ L Hw) in E. destruct (Z.eqb_spec v' v); [lia|reflexivity].
  - rewrite avg_zero; [unfold PK; rewrite (law_out _ _ L) by lia; ring|]. intros w _ Hw. unfold cont. destruct (samplerz F k mu s smin (stream w) 0) as [[v' p']| |] eqn:E; try reflexivity.
    apply (in_window _ _ _ _ _ _ L Hw) in E. destruct (Z.eqb_spec v' v); [lia|reflexivity].
  - lia.
Qed.

(** ** runs *)
Lemma samplerz_shift k mu s g g' p q : (forall i, g (p + i)%nat = g' i) ->
  samplerz F k mu s smin g (p + q) = match samplerz F k mu s smin g' q with Ok (v, n) => Ok (v, (p + n)%nat) | UB => UB | Fuel => Fuel end.
Proof. intros H. unfold samplerz. apply loop_shift. exact H. Qed.
Lemma run_shift {A} k (p : prog F A) g g' a : (forall i, g (a + i)%nat = g' i) -> forall q, run smin k g p (a + q) = match run smin k g' p q with Ok (v, n) => Ok (v, (a + n)%nat) | UB => UB | Fuel => Fuel end.
Proof.
  intros H. induction p as [x|mu s c IH|b]; intros q; cbn [run]; [reflexivity| |destruct b; reflexivity].
  rewrite (samplerz_shift k mu s g g' a q H). destruct (samplerz F k mu s smin g' q) as [[v n]| |]; cbn [bind]; [apply IH|reflexivity|reflexivity].
Qed.
Lemma run_skip {A} k (p : prog F A) w n : run smin k (stream w) p n = match run smin k (stream (skipn n w)) p 0 with Ok (v, m) => Ok (v, (n + m)%nat) | UB => UB | Fuel => Fuel end.
Proof. rewrite <- (Nat.add_0_r n) at 1. apply run_shift. intros i. unfold stream. symmetry. apply nth_skip. Qed.
Lemma run_pcalls {A} k (p : prog F A) g : forall q a q', run smin k g p q = Ok (a, q') -> exists cs, pcalls p cs a.
Proof.
  induction p as [x|mu s c IH|b]; intros q a q' H; cbn [run] in H; [injection H as -> _; exists []; split; reflexivity| |destruct b; discriminate].
  destruct (samplerz F k mu s smin g q) as [[v n]| |]; cbn [bind] in H; try discriminate. apply IH in H. destruct H as [cs H]. exists ((mu, s, v) :: cs). exists v, cs. split; [reflexivity|exact H].
Qed.
Definition ends_with {A} (tst : A -> bool) (r : res (A * nat)) : bool := match r with Ok (a, _) => tst a | _ => false end.
Lemma evp_run {A} k (tst : A -> bool) (p : prog F A) : forall vs w, (forall cs a, pcalls p cs a -> (tst a = true <-> map snd cs = vs)) -> ind (ends_with tst (run smin k (stream w) p 0)) = evp k p vs w.
Proof.
  induction p as [x|mu s c IH|b]; intros vs w H.
  - cbn [run ends_with]. assert (E := H [] x (conj eq_refl eq_refl)). cbn [map] in E. destruct vs as [|v r]; cbn [evp].
    + rewrite (proj2 E eq_refl). reflexivity.
    + destruct (tst x); [assert (X := proj1 E eq_refl); discriminate|reflexivity].
  - cbn [run]. assert (Z : forall v m, (match vs with [] => True | u :: _ => v <> u end) -> ind (ends_with tst (run smin k (stream w) (c v) m)) = 0).
    { intros v m Hv. destruct (run smin k (stream w) (c v) m) as [[a n]| |] eqn:E; [|reflexivity|reflexivity]. cbn [ends_with]. destruct (tst a) eqn:Et; [|reflexivity]. exfalso.
      destruct (run_pcalls _ _ _ _ _ _ E) as [cs Hc]. assert (X : map snd ((mu, s, v) :: cs) = vs) by (apply (H _ a); [exists v, cs; split; [reflexivity|exact Hc]|exact Et]). rewrite <- X in Hv. cbn in Hv. apply Hv. reflexivity. }
    destruct vs as [|u r]; cbn [evp].
    + destruct (samplerz F k mu s smin (stream w) 0) as [[v n]| |]; cbn [bind]; [apply Z; exact I|reflexivity|reflexivity].
    + unfold cont. destruct (samplerz F k mu s smin (stream w) 0) as [[v n]| |]; cbn [bind]; [|reflexivity|reflexivity]. destruct (Z.eqb_spec v u) as [->|N]; [|apply Z; exact N].
      rewrite <- (IH u r (skipn n w)).
      * rewrite run_skip. destruct (run smin k (stream (skipn n w)) (c u) 0) as [[a m]| |]; reflexivity.
      * intros cs a Hc. rewrite (H ((mu, s, u) :: cs) a) by (exists u, cs; split; [reflexivity|exact Hc]). cbn [map snd]. split; congruence.
  - cbn [run evp]. destruct b; reflexivity.
Qed.
Lemma prob_path {A} k n (tst : A -> bool) (p : prog F A) vs : lawp p -> (18 * k * length vs <= n)%nat -> (forall cs a, pcalls p cs a -> (tst a = true <-> map snd cs = vs)) ->
  prob n (fun w => ends_with tst (run smin k (stream w) p 0)) = pr k p vs.
Proof. intros L Hn H. rewrite prob_avg, (avg_ext n _ (evp k p vs)); [apply avg_evp; assumption|]. intros w _ _. apply evp_run. exact H. Qed.

(** ** total distance *)
Fixpoint box {A} (M : nat) (p : prog F A) : list (list Z) :=
  match p with Ret _ => [[]] | Call mu s c => flat_map (fun v => map (cons v) (box M (c v))) (vals M (flo mu)) | Stop _ => [] end.
Lemma IV_pos mu s v : 1 <= sd s <= 18205 / 10000 -> 0 <= IV mu s v.
Proof. intros [H1 H2]. apply (I_pos (ct mu) (sd s) 1); lra. Qed.
Lemma IV_sum mu s l : 1 <= sd s <= 18205 / 10000 -> NoDup l -> lsum (IV mu s) l <= 1.
Proof. intros [H1 H2]. apply (I_sum (ct mu) (sd s) 1); lra. Qed.
Lemma id_pos {A} (p : prog F A) : sdp p -> forall vs, 0 <= id p vs.
Proof.
  induction p as [a|mu s c IH|b]; intros H vs; destruct vs as [|v r]; cbn [id]; try lra. cbn [sdp] in H. destruct H as [H1 H2]. apply Rmult_le_pos; [apply IV_pos; exact H1|apply IH, H2].
Qed.
Lemma id_box {A} M (p : prog F A) : sdp p -> lsum (id p) (box M p) <= 1.
Proof.
  induction p as [a|mu s c IH|b]; intros H; cbn [box sdp] in *; [cbn; lra| |cbn; lra]. destruct H as [H1 H2]. rewrite lsum_flat.
  apply Rle_trans with (lsum (IV mu s) (vals M (flo mu))); [|apply IV_sum; [exact H1|apply vals_nodup]]. apply lsum_le. intros v _. rewrite lsum_map. cbn [id]. rewrite lsum_scal.
  rewrite <- (Rmult_1_r (IV mu s v)) at 2. apply Rmult_le_compat_l; [apply IV_pos; exact H1|apply IH, H2].
Qed.
Definition eps (k : nat) : R := / 2 ^ 35 + (11 / 12) ^ k.
Lemma eps_pos k : 0 <= eps k.
Proof. unfold eps. assert (0 < / 2 ^ 35) by (apply Rinv_0_lt_compat, pow_lt; lra). assert (0 <= (11 / 12) ^ k) by (apply pow_le; lra). lra. Qed.
Lemma PK_pos k mu s v : lawful mu s -> 0 <= PK k mu s v <= PV mu s v.
Proof.
  intros L. assert (PA := law_pa _ _ L). assert (P0 := law_pos _ _ L v). assert (A0 : 0 <= (1 - pa (thf mu s)) ^ k) by (apply pow_le; lra). assert (A1 : (1 - pa (thf mu s)) ^ k <= 1) by (apply pow_le1; lra). unfold PK.
  split; [apply Rmult_le_pos; lra|]. rewrite <- (Rmult_1_r (PV mu s v)) at 2. apply Rmult_le_compat_l; lra.
Qed.
Lemma box_tv {A} M k (p : prog F A) : (18 <= M)%nat -> lawp p -> sdp p -> forall d, deep d p -> lsum (fun vs => Rabs (pr k p vs - id p vs)) (box M p) <= INR d * eps k.
Proof.
  intros HM. induction p as [a|mu s c IH|b]; intros L S d Hd; cbn [box lawp sdp deep] in *.
  - cbn. rewrite Rminus_diag_eq, Rabs_R0 by reflexivity. assert (E := eps_pos k). assert (0 <= INR d * eps k) by (apply Rmult_le_pos; [apply pos_INR|exact E]). lra.
  - destruct d as [|d]; [tauto|]. destruct L as [L LP], S as [S SP]. rewrite lsum_flat, S_INR. assert (E := eps_pos k).
    apply Rle_trans with (lsum (fun v => INR d * eps k * PV mu s v + Rabs (PK k mu s v - IV mu s v)) (vals M (flo mu))).
    + apply lsum_le. intros v _. rewrite lsum_map. cbn [pr id].
      apply Rle_trans with (lsum (fun r => PK k mu s v * Rabs (pr k (c v) r - id (c v) r) + Rabs (PK k mu s v - IV mu s v) * id (c v) r) (box M (c v))).
      * apply lsum_le. intros r _. replace (PK k mu s v * pr k (c v) r - IV mu s v * id (c v) r) with (PK k mu s v * (pr k (c v) r - id (c v) r) + (PK k mu s v - IV mu s v) * id (c v) r) by ring.
        eapply Rle_trans; [apply Rabs_triang|]. rewrite !Rabs_mult, (Rabs_pos_eq (PK k mu s v)) by (apply PK_pos; exact L). rewrite (Rabs_pos_eq (id (c v) r)) by (apply id_pos, SP). lra.
      * rewrite lsum_plus, !lsum_scal. apply Rplus_le_compat.
        -- destruct (PK_pos k mu s v L) as [K0 K1]. destruct (Z_le_dec (-18) (v - flo mu)) as [W1|W1]; [destruct (Z_le_dec (v - flo mu) 19) as [W2|W2]|].
           ++ specialize (IH v (LP v (conj W1 W2)) (SP v) d (Hd v)). rewrite (Rmult_comm _ (PV mu s v)). apply Rmult_le_compat; [exact K0|apply lsum_pos; intros; apply Rabs_pos|exact K1|exact IH].
           ++ unfold PK. rewrite (law_out _ _ L) by lia. lra.
           ++ unfold PK. rewrite (law_out _ _ L) by lia. lra.
        -- rewrite <- (Rmult_1_r (Rabs (PK k mu s v - IV mu s v))) at 2. apply Rmult_le_compat_l; [apply Rabs_pos|]. apply id_box, SP.
    + rewrite lsum_plus, lsum_scal, (law_sum _ _ L) by exact HM. assert (T := law_tv _ _ L M k HM). unfold eps in *. lra.
  - cbn. assert (E := eps_pos k). apply Rmult_le_pos; [apply pos_INR|exact E].
Qed.
Lemma box_in {A} k (p : prog F A) : forall vs, exists M0, forall M, (M0 <= M)%nat -> In vs (box M p) \/ (pr k p vs = 0 /\ id p vs = 0).
Proof.
  induction p as [a|mu s c IH|b]; intros vs; [| |exists 0%nat; intros M _; right; destruct vs; split; reflexivity].
  - exists 0%nat. intros M _. destruct vs; [left; left; reflexivity|right; split; reflexivity].
  - destruct vs as [|v r]; [exists 0%nat; intros M _; right; split; reflexivity|]. destruct (IH v r) as [M0 H]. exists (M0 + Z.to_nat (Z.abs (v - flo mu)))%nat. intros M HM.
    destruct (H M ltac:(lia)) as [I|[Z1 Z2]].
    + left. cbn [box]. apply in_flat_map. exists v. split; [apply vals_in; lia|apply in_map; exact I].
    + right. cbn [pr id]. rewrite Z1, Z2. split; ring.
Qed.
Lemma path_tv {A} k (p : prog F A) L d : lawp p -> sdp p -> deep d p -> NoDup L -> lsum (fun vs => Rabs (pr k p vs - id p vs)) L <= INR d * eps k.
Proof.
  intros H1 H2 H3 ND. assert (exists M0, forall M, (M0 <= M)%nat -> forall vs, In vs L -> In vs (box M p) \/ (pr k p vs = 0 /\ id p vs = 0)) as [M0 HM].
  { clear ND. induction L as [|v L [M1 IH]]; [exists 0%nat; intros M _ vs []|]. destruct (box_in k p v) as [M2 H]. exists (M1 + M2)%nat. intros M HM vs [->|Hv]; [apply H; lia|apply IH; [lia|exact Hv]]. }
  apply Rle_trans with (lsum (fun vs => Rabs (pr k p vs - id p vs)) (box (18 + M0) p)); [|apply box_tv; try assumption; lia].
  apply lsum_incl; [exact (list_eq_dec Z.eq_dec)|intros; apply Rabs_pos|exact ND|]. intros vs Hv. destruct (HM (18 + M0)%nat ltac:(lia) vs Hv) as [I|[Z1 Z2]]; [left; exact I|right]. rewrite Z1, Z2, Rminus_diag_eq, Rabs_R0 by reflexivity. reflexivity.
Qed.

(** ** ending *)
Fixpoint evq {A} (k : nat) (p : prog F A) (w : list Z) : R :=
  match p with Ret _ => 1 | Stop _ => 0 | Call mu s c => match samplerz F k mu s smin (stream w) 0 with Ok (v, n) => evq k (c v) (skipn n w) | _ => 0 end end.
Fixpoint en {A} (k : nat) (p : prog F A) : R :=
  match p with Ret _ => 1 | Stop _ => 0 | Call mu s c => rsum 38 (fun j => let v := (flo mu - 18 + Z.of_nat j)%Z in en k (c v) * PK k mu s v) end.
Lemma evq_run {A} k (p : prog F A) : forall w, ind (ends_with (fun _ => true) (run smin k (stream w) p 0)) = evq k p w.
Proof.
  induction p as [x|mu s c IH|b]; intros w; cbn [run evq]; [reflexivity| |destruct b; reflexivity].
  destruct (samplerz F k mu s smin (stream w) 0) as [[v n]| |]; cbn [bind]; [|reflexivity|reflexivity]. rewrite <- IH, run_skip. destruct (run smin k (stream (skipn n w)) (c v) 0) as [[a m]| |]; reflexivity.
Qed.
Lemma avg_evq {A} k (p : prog F A) : lawp p -> forall d n, deep d p -> (18 * k * d <= n)%nat -> avg n (evq k p) = en k p.
Proof.
  induction p as [a|mu s c IH|b]; intros L d n Hd Hn; cbn [evq en lawp deep] in *; try (apply avg_const). destruct d as [|d]; [tauto|]. destruct L as [L LP].
  rewrite (avg_ext n _ (fun w => rsum 38 (fun j => let v := (flo mu - 18 + Z.of_nat j)%Z in cont F mu s smin k v (evq k (c v)) w))).
  - rewrite avg_rsum. apply rsum_ext. intros j Hj. cbv zeta. set (v := (flo mu - 18 + Z.of_nat j)%Z).
    rewrite (cont_prob F mu s smin (thf mu s) (flo mu) (law_th _ _ L) (law_to _ _ L) k v _ (en k (c v)) (18 * k * d)).
    + rewrite PK_geom by exact L. reflexivity.
    + intros n' Hn'. apply (IH v) with d; [apply LP; lia|apply Hd|exact Hn'].
    + lia.
  - intros w _ Hw. unfold cont. destruct (samplerz F k mu s smin (stream w) 0) as [[v n']| |] eqn:E; [|rewrite rsum_const; ring|rewrite rsum_const; ring].
    apply (in_window _ _ _ _ _ _ L Hw) in E. rewrite (rsum_one 38 (Z.to_nat (v - flo mu + 18))); [|lia|].
    + cbv zeta. replace (flo mu - 18 + Z.of_nat (Z.to_nat (v - flo mu + 18)))%Z with v by lia. rewrite Z.eqb_refl. reflexivity.
    + intros j Hj N. cbv zeta. destruct (Z.eqb_spec v (flo mu - 18 + Z.of_nat j)); [lia|reflexivity].
Qed.
Lemma rsum_le n f g : (forall i, (i < n)%nat -> f i <= g i) -> rsum n f <= rsum n g.
Proof. intros H. induction n as [|n IH]; cbn [rsum]; [lra|]. apply Rplus_le_compat; [apply IH; intros; apply H; lia|apply H; lia]. Qed.
Lemma PV_38 mu s : lawful mu s -> rsum 38 (fun j => PV mu s (flo mu - 18 + Z.of_nat j)%Z) = 1.
Proof.
  intros L. assert (PA := law_pa _ _ L). unfold PV. rewrite (rsum_ext 38 _ (fun j => / pa (thf mu s) * pv (thf mu s) (flo mu) (flo mu - 18 + Z.of_nat j)%Z)) by (intros; unfold Rdiv; ring).
  rewrite rsum_scal, (P_dist64.pv_sum F mu s smin _ _ (law_th _ _ L) (law_to _ _ L)). field. lra.
Qed.
Lemma en_low {A} k (p : prog F A) : lawp p -> forall d, deep d p -> (1 - (11 / 12) ^ k) ^ d <= en k p <= 1.
Proof.
  assert (Q0 : 0 <= (11 / 12) ^ k) by (apply pow_le; lra). assert (Q1 : (11 / 12) ^ k <= 1) by (apply pow_le1; lra).
  assert (D1 : forall d, (1 - (11 / 12) ^ k) ^ d <= 1) by (intros d; apply pow_le1; lra).
  induction p as [a|mu s c IH|b]; intros L d Hd; cbn [en lawp deep] in *; [specialize (D1 d); lra| |tauto]. destruct d as [|d]; [tauto|]. destruct L as [L LP].
  assert (PA := law_pa _ _ L). assert (U := PV_38 _ _ L). assert (A0 : 0 <= (1 - pa (thf mu s)) ^ k) by (apply pow_le; lra). assert (A1 : (1 - pa (thf mu s)) ^ k <= (11 / 12) ^ k) by (apply pow_incr; lra).
  split.
  - apply Rle_trans with (rsum 38 (fun j => (1 - (11 / 12) ^ k) ^ S d * PV mu s (flo mu - 18 + Z.of_nat j)%Z)); [rewrite rsum_scal, U, Rmult_1_r; apply Rle_refl|]. apply rsum_le. intros j Hj. cbv zeta. set (v := (flo mu - 18 + Z.of_nat j)%Z).
    destruct (IH v (LP v ltac:(lia)) d (Hd v)) as [I0 I1]. cbn [pow]. unfold PK. assert (P0 := law_pos _ _ L v).
    assert (E0 : 0 <= (1 - (11 / 12) ^ k) ^ d) by (apply pow_le; lra).
    assert (X : (1 - (11 / 12) ^ k) * PV mu s v <= PV mu s v * (1 - (1 - pa (thf mu s)) ^ k)) by (rewrite Rmult_comm; apply Rmult_le_compat_l; lra).
    replace ((1 - (11 / 12) ^ k) * (1 - (11 / 12) ^ k) ^ d * PV mu s v) with ((1 - (11 / 12) ^ k) ^ d * ((1 - (11 / 12) ^ k) * PV mu s v)) by ring.
    apply Rmult_le_compat; [exact E0|apply Rmult_le_pos; lra|exact I0|exact X].
  - rewrite <- U. apply rsum_le. intros j Hj. cbv zeta. set (v := (flo mu - 18 + Z.of_nat j)%Z). destruct (IH v (LP v ltac:(lia)) d (Hd v)) as [I0 I1]. destruct (PK_pos k mu s v L) as [K0 K1].
    assert (E0 : 0 <= (1 - (11 / 12) ^ k) ^ d) by (apply pow_le; lra). assert (en k (c v) * PK k mu s v <= 1 * PK k mu s v) by (apply Rmult_le_compat_r; lra). lra.
Qed.
Lemma bernoulli x d : 0 <= x <= 1 -> 1 - INR d * x <= (1 - x) ^ d.
Proof.
  intros Hx. induction d as [|d IH]; [simpl; lra|]. rewrite S_INR. cbn [pow]. assert (P := pos_INR d). assert (0 <= INR d * x) by (apply Rmult_le_pos; lra).
  assert (0 <= INR d * x * x) by (apply Rmult_le_pos; lra). assert ((1 - x) * (1 - INR d * x) <= (1 - x) * (1 - x) ^ d) by (apply Rmult_le_compat_l; lra). nra.
Qed.
Lemma prob_ends {A} k n d (p : prog F A) : lawp p -> deep d p -> (18 * k * d <= n)%nat -> 1 - INR d * (11 / 12) ^ k <= prob n (fun w => ends_with (fun _ => true) (run smin k (stream w) p 0)) <= 1.
Proof.
  intros L Hd Hn. rewrite prob_avg, (avg_ext n _ (evq k p)) by (intros w _ _; apply evq_run). rewrite (avg_evq k p L d n Hd Hn). destruct (en_low k p L d Hd) as [E0 E1]. split; [|exact E1].
  eapply Rle_trans; [|exact E0]. apply bernoulli. split; [apply pow_le; lra|apply pow_le1; lra].
Qed.
End Run.
