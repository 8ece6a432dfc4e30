(** P_res.v -- the length of the compressed form of a Gaussian vector modulo 8: every remainder takes nearly one eighth. *)
From Verif Require Import Base Spec SpecR SpecS SpecG SpecJ M_float M_exact M_tree P_prob P_dist P_gsum P_jgauss P_jcoset P_tot P_theta P_wide P_loopk P_sim P_fit P_fitn P_fitm P_resn.
From Verif Require P_leaf.
From Coq Require Import Reals Lra.
Open Scope R_scope.

(** ** remainders *)
Lemma mod8_eq a b r : (r < 8)%nat -> ((a + b) mod 8 = r <-> b mod 8 = (r + 8 - a mod 8) mod 8)%nat.
Proof.
  intros Hr. assert (Ha := Nat.mod_upper_bound a 8 ltac:(lia)). assert (Hb := Nat.mod_upper_bound b 8 ltac:(lia)). rewrite (Nat.add_mod a b 8) by lia.
  set (x := (a mod 8)%nat) in *. set (y := (b mod 8)%nat) in *. clearbody x y.
  assert (E1 : ((x + y) mod 8 = if Nat.ltb (x + y) 8 then x + y else x + y - 8)%nat).
  { destruct (Nat.ltb_spec (x + y) 8); [apply Nat.mod_small; lia|]. replace (x + y)%nat with ((x + y - 8) + 1 * 8)%nat at 1 by lia. rewrite Nat.mod_add by lia. apply Nat.mod_small. lia. }
  assert (E2 : ((r + 8 - x) mod 8 = if Nat.ltb (r + 8 - x) 8 then r + 8 - x else r - x)%nat).
  { destruct (Nat.ltb_spec (r + 8 - x) 8); [apply Nat.mod_small; lia|]. replace (r + 8 - x)%nat with ((r - x) + 1 * 8)%nat by lia. rewrite Nat.mod_add by lia. apply Nat.mod_small. lia. }
  rewrite E1, E2. destruct (Nat.ltb_spec (x + y) 8), (Nat.ltb_spec (r + 8 - x) 8); lia.
Qed.

Section Res.
Variable k : R.
Variable TH : R.
Hypothesis HT : gtot (rho1 k) TH.
Notation w := (fun l => Rprod (map (rho1 k) l)).
Definition one (a : nat) (z : Z) : Prop := True /\ (lev z mod 8)%nat = a.
Definition dom (n r : nat) (l : list Z) : Prop := length l = n /\ (levs l mod 8)%nat = r.
Lemma rho0 z : 0 <= rho1 k z. Proof. left. apply exp_pos. Qed.
Lemma TH_pos : 0 < TH.
Proof. apply Rlt_le_trans with (lsum (rho1 k) [0%Z]); [unfold lsum; cbn [fold_right]; rewrite Rplus_0_r; apply exp_pos|]. apply (tot_le _ _ _ HT). constructor; [intros []|constructor]. Qed.
Lemma one_ex a : exists P, total (one a) (rho1 k) P.
Proof. apply (total_ex _ _ TH). intros l Nl _. apply (tot_le _ _ _ HT Nl). Qed.
Lemma dom_ex n r : exists T, total (dom n r) w T.
Proof. apply (total_ex _ _ (TH ^ n)). intros l Nl Dl. apply (total_le (fun l => length l = n) _ _ l (total_len Z.eq_dec _ _ rho0 HT n) Nl). eapply Forall_impl; [|exact Dl]. intros x H. apply H. Qed.
Lemma one_sum P : (forall a, (a < 8)%nat -> total (one a) (rho1 k) (P a)) -> rsum 8 P = TH.
Proof.
  intros HP. rewrite <- lsum_seq. assert (A := total_keys Nat.eq_dec (fun z => lev z mod 8)%nat (fun _ : Z => True) (rho1 k) P (seq 0 8) (seq_NoDup _ _)).
  refine (total_unique (fun _ => True) _ _ _ _ (total_all _ _ HT)). refine (total_iff _ _ _ _ _ (A _)).
  - intros z. split; [intros; exact I|]. intros _. split; [exact I|]. apply in_seq. assert (B := Nat.mod_upper_bound (lev z) 8 ltac:(lia)). lia.
  - intros a Ha. apply in_seq in Ha. apply HP. lia.
Qed.
Lemma dom_sum n T : (forall r, (r < 8)%nat -> total (dom n r) w (T r)) -> rsum 8 T = TH ^ n.
Proof.
  intros HP. rewrite <- lsum_seq. assert (A := total_keys Nat.eq_dec (fun l => levs l mod 8)%nat (fun l : list Z => length l = n) w T (seq 0 8) (seq_NoDup _ _)).
  refine (total_unique (fun l => length l = n) _ _ _ _ (total_len Z.eq_dec _ _ rho0 HT n)). refine (total_iff _ _ _ _ _ (A _)).
  - intros l. split; [intros [H _]; exact H|]. intros H. split; [exact H|]. apply in_seq. assert (B := Nat.mod_upper_bound (levs l) 8 ltac:(lia)). lia.
  - intros a Ha. apply in_seq in Ha. apply HP. lia.
Qed.
Lemma dom_step n r P T T' : (r < 8)%nat -> (forall a, (a < 8)%nat -> total (one a) (rho1 k) (P a)) -> (forall b, (b < 8)%nat -> total (dom n b) w (T b)) -> total (dom (S n) r) w T' ->
  T' = rsum 8 (fun a => P a * T ((r + 8 - a) mod 8)%nat).
Proof.
  intros Hr HP HTn HS. rewrite <- lsum_seq. set (W := fun a => P a * T ((r + 8 - a) mod 8)%nat).
  assert (A := total_keys Nat.eq_dec (fun l => lev (hd 0%Z l) mod 8)%nat (dom (S n) r) w W (seq 0 8) (seq_NoDup _ _)).
  refine (total_unique _ _ _ _ HS _). refine (total_iff _ _ _ _ _ (A _)).
  - intros l. split; [intros [H _]; exact H|]. intros H. split; [exact H|]. apply in_seq. assert (B := Nat.mod_upper_bound (lev (hd 0%Z l)) 8 ltac:(lia)). lia.
  - intros a Ha. apply in_seq in Ha. assert (B := Nat.mod_upper_bound (r + 8 - a) 8 ltac:(lia)).
    assert (Q := total_prod Z.eq_dec (list_eq_dec Z.eq_dec) _ _ _ _ _ _ rho0 (fun l => Rprod_map_pos _ l rho0) (HP a ltac:(lia)) (HTn _ B)).
    refine (move_total (fun p : Z * list Z => one a (fst p) /\ dom n ((r + 8 - a) mod 8)%nat (snd p)) (fun l => dom (S n) r l /\ (lev (hd 0%Z l) mod 8)%nat = a) (fun p => fst p :: snd p) _ _ _ w (W a) Q).
    + intros [z l] [[_ H1] [H2 H3]]. cbn [fst snd] in *. split; [split|exact H1]; [cbn [length]; congruence|]. change (levs (z :: l)) with (lev z + levs l)%nat. apply mod8_eq; [exact Hr|]. rewrite H1. exact H3.
    + intros [x u] [y v] _ _ E. cbn [fst snd] in E. congruence.
    + intros [|z l] [[H1 H2] H3]; [discriminate|]. exists (z, l). cbn [fst snd hd length] in *. split; [split; [split; [exact I|exact H3]|]|reflexivity]. split; [congruence|]. change (levs (z :: l)) with (lev z + levs l)%nat in H2. apply mod8_eq in H2; [|exact Hr]. rewrite H3 in H2. exact H2.
Qed.
Definition low (n r : nat) (c : R) : Prop := forall T, total (dom n r) w T -> c * TH ^ n <= T.
Lemma low_step n p c : (forall a, (a < 8)%nat -> 0 <= p a) -> (forall b, (b < 8)%nat -> 0 <= c b) -> (forall a, (a < 8)%nat -> forall P, total (one a) (rho1 k) P -> p a * TH <= P) -> (forall b, (b < 8)%nat -> low n b (c b)) ->
  forall r, (r < 8)%nat -> low (S n) r (rsum 8 (fun a => p a * c ((r + 8 - a) mod 8)%nat)).
Proof.
  intros p0 c0 Hp Hc r Hr T' HT'. destruct (fun_ex _ one_ex 8) as [P HP]. destruct (fun_ex _ (dom_ex n) 8) as [T HTn].
  rewrite (dom_step n r P T T' Hr HP HTn HT'). cbn [pow]. rewrite Rmult_comm, <- rsum_scal. apply rsum_le_all. intros a Ha. assert (B := Nat.mod_upper_bound (r + 8 - a) 8 ltac:(lia)).
  assert (TH0 := TH_pos). assert (0 < TH ^ n) by (apply pow_lt; exact TH0).
  replace (TH * TH ^ n * (p a * c ((r + 8 - a) mod 8)%nat)) with (p a * TH * (c ((r + 8 - a) mod 8)%nat * TH ^ n)) by ring.
  apply Rmult_le_compat; [apply Rmult_le_pos; [apply p0; exact Ha|lra]|apply Rmult_le_pos; [apply c0; exact B|lra]|apply (Hp a Ha); apply HP; exact Ha|apply (Hc _ B); apply HTn; exact B].
Qed.
Lemma low_keep n c : (forall b, (b < 8)%nat -> low n b c) -> forall r, (r < 8)%nat -> low (S n) r c.
Proof.
  intros Hc r Hr T' HT'. destruct (fun_ex _ one_ex 8) as [P HP]. destruct (fun_ex _ (dom_ex n) 8) as [T HTn].
  rewrite (dom_step n r P T T' Hr HP HTn HT'). cbn [pow]. rewrite <- (one_sum P HP) at 1. rewrite (Rmult_comm (rsum 8 P)), <- Rmult_assoc, <- rsum_scal. apply rsum_le_all. intros a Ha. assert (B := Nat.mod_upper_bound (r + 8 - a) 8 ltac:(lia)).
  rewrite Rmult_comm. apply Rmult_le_compat_l; [|apply (Hc _ B); apply HTn; exact B]. apply (total_le _ _ _ [] (HP a Ha) (NoDup_nil _) (Forall_nil _)).
Qed.
Lemma low_more n c d : (forall b, (b < 8)%nat -> low n b c) -> forall r, (r < 8)%nat -> low (d + n) r c.
Proof. intros H. induction d as [|d IH]; [exact H|]. apply low_keep. exact IH. Qed.
Lemma low_less n r c c' : c' <= c -> low n r c -> low n r c'.
Proof. intros Hc H T HT'. eapply Rle_trans; [|exact (H T HT')]. apply Rmult_le_compat_r; [|exact Hc]. left. apply pow_lt, TH_pos. Qed.

(** ** in millionths, rounded down *)
Definition turn (p c : list Z) (r : nat) : Z := (zsum 8 (fun a => nth a p 0 * nth ((r + 8 - a) mod 8) c 0) / 1000000)%Z.
Definition conv (p c : list Z) : list Z := map (turn p c) (seq 0 8).
Definition convs (p : list Z) (n : nat) : list Z := Nat.iter n (conv p) [1000000; 0; 0; 0; 0; 0; 0; 0]%Z.
Variable p : list Z.
Hypothesis p0 : Forall (fun x => (0 <= x)%Z) p.
Hypothesis Hp : forall a, (a < 8)%nat -> forall P, total (one a) (rho1 k) P -> IZR (nth a p 0%Z) / 1000000 * TH <= P.
Lemma zsum_nonneg n f : (forall i, (i < n)%nat -> (0 <= f i)%Z) -> (0 <= zsum n f)%Z.
Proof. induction n as [|n IH]; intros H; cbn [zsum]; [lia|]. assert (A := IH ltac:(intros; apply H; lia)). assert (B := H n ltac:(lia)). lia. Qed.
Lemma nth_nonneg (l : list Z) i : Forall (fun x => (0 <= x)%Z) l -> (0 <= nth i l 0)%Z.
Proof. intros H. destruct (Nat.lt_ge_cases i (length l)) as [G|G]; [rewrite Forall_forall in H; apply H, nth_In, G|rewrite nth_overflow by exact G; lia]. Qed.
Lemma turn_pos c r : Forall (fun x => (0 <= x)%Z) c -> (0 <= turn p c r)%Z.
Proof. intros H. apply Z.div_pos; [|lia]. apply zsum_nonneg. intros i _. apply Z.mul_nonneg_nonneg; apply nth_nonneg; assumption. Qed.
Lemma convs_pos n : Forall (fun x => (0 <= x)%Z) (convs p n).
Proof.
  induction n as [|n IH]; [repeat (apply Forall_cons; [lia|]); apply Forall_nil|]. change (convs p (S n)) with (conv p (convs p n)). apply Forall_forall. intros x Hx. apply in_map_iff in Hx. destruct Hx as (r & <- & _). apply turn_pos. exact IH.
Qed.
Lemma convs_low n : forall r, (r < 8)%nat -> low n r (IZR (nth r (convs p n) 0%Z) / 1000000).
Proof.
  induction n as [|n IH]; intros r Hr.
  - intros T HT'. cbn [pow]. rewrite Rmult_1_r. destruct r as [|r].
    + change (nth 0 (convs p 0) 0%Z) with 1000000%Z. replace (1000000 / 1000000) with (lsum w [[]]) by (unfold lsum; cbn; lra). apply (total_le _ _ _ _ HT'); [constructor; [intros []|constructor]|]. constructor; [split; reflexivity|constructor].
    + replace (nth (S r) (convs p 0) 0%Z) with 0%Z by (do 7 (destruct r as [|r]; [reflexivity|]); lia). unfold Rdiv. rewrite Rmult_0_l. apply (total_le _ _ _ [] HT' (NoDup_nil _) (Forall_nil _)).
  - assert (N := convs_pos n).
    assert (A := low_step n (fun a => IZR (nth a p 0%Z) / 1000000) (fun b => IZR (nth b (convs p n) 0%Z) / 1000000)). refine (low_less (S n) r _ _ _ (A _ _ Hp IH r Hr)).
    + change (convs p (S n)) with (conv p (convs p n)). unfold conv. rewrite (nth_indep _ 0%Z (turn p (convs p n) 0)) by (rewrite map_length, seq_length; exact Hr). rewrite map_nth, seq_nth by exact Hr. cbn [Nat.add].
      set (c := convs p n) in *. rewrite (rsum_ext 8 _ (fun a => / (1000000 * 1000000) * IZR (nth a p 0 * nth ((r + 8 - a) mod 8)%nat c 0)%Z)).
      2: { intros a _. rewrite mult_IZR. field. }
      rewrite rsum_scal, <- rsum_zsum. unfold turn. set (s := zsum 8 _). assert (D := Z.mul_div_le s 1000000 ltac:(lia)). apply IZR_le in D. rewrite mult_IZR in D. lra.
    + intros a _. assert (X := nth_nonneg p a p0). apply IZR_le in X. lra.
    + intros a _. assert (X := nth_nonneg _ a N). apply IZR_le in X. lra.
Qed.
End Res.

(** ** the two parameter sets *)
Definition strip (j : nat) : list Z := match j with O => core 127 | _ => map (fun i => (128 * Z.of_nat j + Z.of_nat i)%Z) (seq 0 128) ++ map (fun i => (- (128 * Z.of_nat j + Z.of_nat i))%Z) (seq 0 128) end.
Lemma strip_nodup j : NoDup (strip j).
Proof.
  destruct j as [|j]; [apply core_nodup|]. unfold strip. apply NoDup_app; [apply NoDup_map_inj; [intros; lia|apply seq_NoDup]|apply NoDup_map_inj; [intros; lia|apply seq_NoDup]|].
  intros z H1 H2. apply in_map_iff in H1, H2. destruct H1 as (i & <- & _). destruct H2 as (i' & E & _). lia.
Qed.
Lemma strip_lev j z : In z (strip j) -> lev z = j.
Proof.
  assert (D : forall y m, (128 * m <= y < 128 * m + 128)%Z -> (y / 128 = m)%Z) by (intros y m H; symmetry; apply (Z.div_unique y 128 m (y - 128 * m)); lia).
  unfold lev. destruct j as [|j]; intros H.
  - apply core_in in H. rewrite (D _ 0%Z) by lia. reflexivity.
  - apply in_app_iff in H. destruct H as [H|H]; apply in_map_iff in H; destruct H as (i & <- & Hi); apply in_seq in Hi; rewrite (D _ (Z.of_nat (S j))) by lia; apply Nat2Z.id.
Qed.
Lemma strip_sum k j : lsum (rho1 k) (strip j) = band_mass k j.
Proof.
  destruct j as [|j]; [apply core_sum|]. unfold strip, band_mass. rewrite lsum_app, !lsum_map, !lsum_seq.
  rewrite (rsum_ext 128 (fun b => rho1 k (- (128 * Z.of_nat (S j) + Z.of_nat b))) (fun i => rho1 k (128 * Z.of_nat (S j) + 64 - 64 + Z.of_nat i))) by (intros; rewrite rho_opp; f_equal; lia).
  rewrite (rsum_ext 128 (fun b => rho1 k (128 * Z.of_nat (S j) + Z.of_nat b)) (fun i => rho1 k (128 * Z.of_nat (S j) + 64 - 64 + Z.of_nat i))) by (intros; f_equal; lia). lra.
Qed.
Lemma shares_ok lg : falcon_lg lg -> let k := / (2 * (sigma_value RF lg * sigma_value RF lg)) in forall TH, gtot (rho1 k) TH ->
  forall a, (a < 8)%nat -> forall P, total (one a) (rho1 k) P -> IZR (nth a (shares lg) 0%Z) / 1000000 * TH <= P.
Proof.
  intros Hlg k TH HT a Ha P HP. destruct (Nat.lt_ge_cases a 5) as [G|G].
  - apply Rle_trans with (band_mass k a); [destruct Hlg as [-> | ->]; [apply (bands_9 TH HT a G)|apply (bands_10 TH HT a G)]|].
    rewrite <- strip_sum. apply (total_le _ _ _ _ HP (strip_nodup a)). apply Forall_forall. intros z Hz. apply strip_lev in Hz. split; [exact I|]. rewrite Hz. apply Nat.mod_small. exact Ha.
  - rewrite nth_overflow by (destruct Hlg as [-> | ->]; exact G). unfold Rdiv. rewrite !Rmult_0_l. apply (total_le _ _ _ [] HP (NoDup_nil _) (Forall_nil _)).
Qed.
Lemma convs_min lg : falcon_lg lg -> forall r, (r < 8)%nat -> (120000 <= nth r (convs (shares lg) 32) 0)%Z.
Proof.
  intros Hlg r Hr. assert (A : forallb (fun r => 120000 <=? nth r (convs (shares lg) 32) 0)%Z (seq 0 8) = true) by (destruct Hlg as [-> | ->]; vm_compute; reflexivity).
  rewrite forallb_forall in A. apply Z.leb_le, A, in_seq. lia.
Qed.
Notation pairs lg := (fun s : list Z * list Z => length (fst s) = (2 ^ lg)%nat /\ length (snd s) = (2 ^ lg)%nat).
(** every remainder of the length has weight between 12/100 and 16/100 *)
Lemma residue_mass lg : falcon_lg lg -> forall WT, total (pairs lg) (fun s => wts lg s) WT -> forall r, (r < 8)%nat ->
  forall W, total (fun s => pairs lg s /\ (levs (snd s) mod 8)%nat = r) (fun s => wts lg s) W -> 12 / 100 * WT <= W <= 16 / 100 * WT.
Proof.
  intros Hlg WT TWT. set (k := / (2 * (sigma_value RF lg * sigma_value RF lg))).
  assert (k0 : / (2 * (18205 / 10000) ^ 2) <= 4 ^ 8 * k) by (unfold k; destruct Hlg as [-> | ->]; [rewrite P_leaf.sigma_9|rewrite P_leaf.sigma_10]; lra).
  destruct (th_exn 8 k 0 k0) as [TH HT0]. unfold th in HT0.
  assert (HT : gtot (rho1 k) TH) by (eapply tot_ext; [|exact HT0]; intros z; unfold rho1; cbv beta; rewrite Rminus_0_r; reflexivity). clear HT0 k0.
  assert (TH0 := TH_pos k TH HT). set (N := (2 ^ lg)%nat) in *. assert (P1 := rho0 k).
  assert (TL := total_len Z.eq_dec _ _ P1 HT N). assert (TN : 0 < TH ^ N) by (apply pow_lt; exact TH0).
  destruct (fun_ex _ (dom_ex k TH HT N) 8) as [T HTn].
  assert (LB : forall r, (r < 8)%nat -> 12 / 100 * TH ^ N <= T r).
  { intros r Hr. assert (A : low k TH N r (12 / 100)).
    { replace N with ((N - 32) + 32)%nat by (unfold N; destruct Hlg as [-> | ->]; reflexivity). apply (low_more k TH HT 32 (12 / 100) (N - 32)); [|exact Hr]. intros b Hb.
      refine (low_less k TH HT 32 b _ _ _ (convs_low k TH HT (shares lg) _ (shares_ok lg Hlg TH HT) 32 b Hb)).
      - assert (M := convs_min lg Hlg b Hb). apply IZR_le in M. lra.
      - destruct Hlg as [-> | ->]; cbn [shares Nat.eqb]; repeat (apply Forall_cons; [lia|]); apply Forall_nil. }
    apply A. apply HTn. exact Hr. }
  assert (SUM := dom_sum k TH HT N T HTn).
  assert (UB : forall r, (r < 8)%nat -> T r <= 16 / 100 * TH ^ N).
  { intros r Hr. assert (B0 := LB 0%nat ltac:(lia)). assert (B1 := LB 1%nat ltac:(lia)). assert (B2 := LB 2%nat ltac:(lia)). assert (B3 := LB 3%nat ltac:(lia)). assert (B4 := LB 4%nat ltac:(lia)). assert (B5 := LB 5%nat ltac:(lia)). assert (B6 := LB 6%nat ltac:(lia)). assert (B7 := LB 7%nat ltac:(lia)).
    cbn [rsum] in SUM. destruct r as [|[|[|[|[|[|[|[|]]]]]]]]; [| | | | | | | |lia]; lra. }
  assert (EW : forall s, wts lg s = Rprod (map (rho1 k) (fst s)) * Rprod (map (rho1 k) (snd s))).
  { intros s. rewrite !rho_prod, <- exp_plus. f_equal. rewrite plus_IZR. unfold k, Rdiv. ring. }
  assert (EWT : WT = TH ^ N * TH ^ N).
  { refine (total_unique _ _ _ _ TWT _). eapply total_ext_fun; [|exact (total_prod (list_eq_dec Z.eq_dec) (list_eq_dec Z.eq_dec) _ _ _ _ _ _ (fun l => Rprod_map_pos _ l P1) (fun l => Rprod_map_pos _ l P1) TL TL)]. intros s. symmetry. apply EW. }
  intros r Hr W HW. assert (E : W = TH ^ N * T r).
  { refine (total_unique _ _ _ _ HW _). assert (Q := total_prod (list_eq_dec Z.eq_dec) (list_eq_dec Z.eq_dec) _ _ _ _ _ _ (fun l => Rprod_map_pos _ l P1) (fun l => Rprod_map_pos _ l P1) TL (HTn r Hr)).
    eapply total_ext_fun; [intros s; symmetry; apply EW|]. eapply total_iff; [|exact Q]. intros s. unfold dom. cbv beta. tauto. }
  rewrite E, EWT. assert (A := LB r Hr). assert (B := UB r Hr). split.
  - replace (12 / 100 * (TH ^ N * TH ^ N)) with (TH ^ N * (12 / 100 * TH ^ N)) by ring. apply Rmult_le_compat_l; lra.
  - replace (16 / 100 * (TH ^ N * TH ^ N)) with (TH ^ N * (16 / 100 * TH ^ N)) by ring. apply Rmult_le_compat_l; lra.
Qed.
(** the rest *)
Lemma residue_rest lg : falcon_lg lg -> forall WT, total (pairs lg) (fun s => wts lg s) WT ->
  forall L, NoDup L -> Forall (fun s => pairs lg s /\ (levs (snd s) mod 8)%nat <> 0%nat) L -> lsum (fun s => wts lg s) L <= 88 / 100 * WT.
Proof.
  intros Hlg WT TWT L NL DL. set (t := fun s : list Z * list Z => Nat.eqb (levs (snd s) mod 8) 0).
  assert (B : forall d : list Z * list Z -> Prop, (forall s, d s -> pairs lg s) -> exists W, total d (fun s => wts lg s) W).
  { intros d Hd. apply (total_ex _ _ WT). intros l Nl Dl. apply (total_le _ _ _ l TWT Nl). eapply Forall_impl; [|exact Dl]. exact Hd. }
  destruct (B (fun s => pairs lg s /\ (levs (snd s) mod 8)%nat = 0%nat)) as [W0 H0]; [tauto|]. destruct (B (fun s => pairs lg s /\ (levs (snd s) mod 8)%nat <> 0%nat)) as [W1 H1]; [tauto|].
  assert (E : W0 + W1 = WT).
  { refine (total_unique _ _ _ _ _ TWT). eapply total_iff; [|refine (total_union _ _ t _ _ _ _ _ H0 H1)].
    - intros s. cbv beta. destruct (Nat.eq_dec (levs (snd s) mod 8) 0); tauto.
    - intros s [_ E]. apply Nat.eqb_eq. exact E.
    - intros s [_ E]. apply Nat.eqb_neq. exact E. }
  assert (A := residue_mass lg Hlg WT TWT 0 ltac:(lia) W0 H0). assert (C := total_le _ _ _ L H1 NL DL). lra.
Qed.
