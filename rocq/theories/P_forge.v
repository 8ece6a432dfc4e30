(** P_forge.v -- a fixed signature against a uniformly random hash: hardly ever accepted without overflow, often accepted with wrap-around. *)
From Verif Require Import Base Spec SpecR SpecS SpecG SpecJ SpecH M_float M_exact M_ff M_codec M_sig M_verify P_ff P_ntt P_nttx P_keys P_decomp P_comp P_sigx P_verify P_verifyx P_prob P_gsum P_genlaw P_tot P_theta P_wide P_kubx P_jkey P_hash P_loopk P_sim P_fit P_fitn P_fitm P_ver P_blind.
From Coq Require Import FinFun Permutation Reals Lra.
Open Scope R_scope.

(** ** without overflow *)
Definition kf : R := - ln (7 / 8) / 16384.
Lemma kf_exp : exp (- (kf * 16384)) = 7 / 8.
Proof. unfold kf. replace (- (- ln (7 / 8) / 16384 * 16384)) with (ln (7 / 8)) by field. apply exp_ln. lra. Qed.
Lemma kf_range : / 131072 <= kf <= / 114688.
Proof.
  assert (E := kf_exp). set (y := kf * 16384) in *. assert (A := exp_ineq1_le (- y)). assert (B := exp_ineq1_le y). rewrite exp_Ropp in E.
  assert (E' : exp y = 8 / 7). { rewrite <- (Rinv_inv (exp y)), E. field. } rewrite exp_Ropp, E in A. rewrite E' in B. unfold y in *. lra.
Qed.
Lemma kf_total : exists TH, gtot (rho1 kf) TH /\ 0 <= TH <= 6223 / 10.
Proof.
  destruct kf_range as [K1 K2]. destruct (th_exn 8 kf 0) as [TH HT]; [lra|]. unfold th in HT.
  assert (HT1 : gtot (rho1 kf) TH) by (eapply tot_ext; [|exact HT]; intros z; unfold rho1; cbv beta; rewrite Rminus_0_r; reflexivity).
  exists TH. split; [exact HT1|]. split; [apply (tot_pos _ _ HT1)|]. eapply Rle_trans; [apply (all_upper kf) with (E := 7 / 8)|lra].
  all: try (rewrite kf_exp; reflexivity). all: try lra. all: try exact HT1.
  assert (A : (12778 / 10000) * (12778 / 10000) <= / (2 * (16384 * kf)) <= 25 / 10 * (25 / 10)).
  { split.
    - rewrite <- (Rinv_inv ((12778 / 10000) * (12778 / 10000))). apply Rinv_le_contravar; lra.
    - rewrite <- (Rinv_inv (25 / 10 * (25 / 10))). apply Rinv_le_contravar; lra. }
  split; [rewrite <- (sqrt_square (12778 / 10000)) by lra|rewrite <- (sqrt_square (25 / 10)) by lra]; apply sqrt_le_1_alt; apply A.
Qed.
Lemma lift_inj x y : canon x -> canon y -> lift x = lift y -> x = y.
Proof. unfold canon, lift, q. intros A B. destruct (Z.ltb_spec x 6144), (Z.ltb_spec y 6144); lia. Qed.
Lemma lift_total TH : gtot (rho1 kf) TH -> rsum Q (fun x => rho1 kf (lift (Z.of_nat x))) <= TH.
Proof.
  intros HT. rewrite <- P_gsum.lsum_seq. rewrite <- (P_gsum.lsum_map (rho1 kf) (fun x => lift (Z.of_nat x))). apply (tot_le _ _ _ HT).
  assert (G : forall l, NoDup l -> (forall x, In x l -> (x < Q)%nat) -> NoDup (map (fun x => lift (Z.of_nat x)) l)).
  { induction 1 as [|x l Hx NL IH]; intros Hl; [constructor|]. cbn [map]. constructor.
    - intros H. apply in_map_iff in H. destruct H as (y & E & Hy). apply Hx. replace x with y; [exact Hy|]. apply Nat2Z.inj. apply lift_inj; [| |exact E].
      + assert (Y := Hl y (or_intror Hy)). unfold canon, q in *. lia.
      + assert (Y := Hl x (or_introl eq_refl)). unfold canon, q in *. lia.
    - apply IH. intros y Hy. apply Hl. right. exact Hy. }
  apply G; [apply seq_NoDup|]. intros x Hx. apply in_seq in Hx. lia.
Qed.
Lemma rho_prod k c : Rprod (map (fun x => rho1 k (lift x)) c) = exp (- (k * IZR (sqnorm (map lift c)))).
Proof.
  induction c as [|x c IH]; [unfold Rprod; cbn; rewrite Rmult_0_r, Ropp_0, exp_0; reflexivity|]. cbn [map]. change (Rprod (rho1 k (lift x) :: ?l)) with (rho1 k (lift x) * Rprod l).
  rewrite sqnorm_cons, plus_IZR, mult_IZR. unfold Rprod in *. cbn [fold_right]. rewrite IH. unfold rho1. rewrite <- exp_plus. f_equal. ring.
Qed.
Lemma near_share n b m : (b <= 16384 * Z.of_nat m)%Z -> lsum (fun c => P_prob.ind (sqnorm (map lift c) <=? b)%Z) (polys n) <= (8 / 7) ^ m * (6223 / 10) ^ n.
Proof.
  intros Hb. destruct kf_total as (TH & HT & T0 & T1). destruct kf_range as [K1 K2].
  apply Rle_trans with ((8 / 7) ^ m * rsum Q (fun x => rho1 kf (lift (Z.of_nat x))) ^ n).
  - rewrite <- (polys_prod (fun x => rho1 kf (lift x))), <- P_gsum.lsum_scal. apply P_gsum.lsum_le. intros c _. rewrite rho_prod.
    assert (E : (8 / 7) ^ m = exp (INR m * (kf * 16384))). { replace (8 / 7) with (exp (- - (kf * 16384))) by (rewrite exp_Ropp, kf_exp; field). rewrite exp_pow. f_equal. ring. }
    rewrite E, <- exp_plus. destruct (sqnorm (map lift c) <=? b)%Z eqn:D; cbn [P_prob.ind]; [|left; apply exp_pos].
    apply Z.leb_le in D. rewrite <- exp_0 at 1. assert (S : IZR (sqnorm (map lift c)) <= 16384 * INR m) by (rewrite INR_IZR_INZ, <- mult_IZR; apply IZR_le; lia).
    assert (X : 0 <= INR m * (kf * 16384) + - (kf * IZR (sqnorm (map lift c)))). { assert (Y := Rmult_le_compat_l kf _ _ ltac:(lra) S). lra. }
    destruct X as [X|X]; [left; apply exp_increasing; exact X|right; rewrite <- X; reflexivity].
  - apply Rmult_le_compat_l; [apply pow_le; lra|]. apply pow_incr. split; [|eapply Rle_trans; [apply (lift_total _ HT)|exact T1]].
    rewrite <- P_gsum.lsum_seq. apply P_gsum.lsum_pos. intros x. left. apply exp_pos.
Qed.
Lemma near_small lg : falcon_lg lg -> share lg (fun c => (sqnorm (map lift c) <=? beta2 lg)%Z) <= (1 / 11) ^ 2 ^ lg.
Proof.
  intros Hlg. unfold share. assert (P : 0 < 12289 ^ 2 ^ lg) by (apply pow_lt; lra).
  assert (Hm : exists m r, (beta2 lg <= 16384 * Z.of_nat m)%Z /\ (m = 4 * 2 ^ lg + r)%nat /\ (4 * r <= 2 ^ lg)%nat).
  { destruct Hlg as [-> | ->]; [exists 2078%nat, 30%nat|exists 4289%nat, 193%nat]; unfold beta2; cbn [Nat.eqb]; split; try lia; split; apply Nat.eqb_eq || apply Nat.leb_le; vm_compute; reflexivity. }
  destruct Hm as (m & r & Hb & -> & Hr). apply (Rmult_le_reg_r _ _ _ P). unfold Rdiv at 1. rewrite Rmult_assoc, Rinv_l, Rmult_1_r by lra.
  eapply Rle_trans; [apply (near_share _ _ _ Hb)|]. rewrite pow_add, <- Rpow_mult_distr, pow_mult.
  assert (R1 : (8 / 7) ^ r <= (25 / 24) ^ 2 ^ lg).
  { apply Rle_trans with (((25 / 24) ^ 4) ^ r); [apply pow_incr; lra|]. rewrite <- pow_mult. apply Rle_pow; [lra|exact Hr]. }
  apply Rle_trans with (((8 / 7) ^ 4) ^ 2 ^ lg * (25 / 24) ^ 2 ^ lg * (6223 / 10) ^ 2 ^ lg).
  - apply Rmult_le_compat_r; [apply pow_le; lra|]. apply Rmult_le_compat_l; [apply pow_le; lra|exact R1].
  - rewrite <- !Rpow_mult_distr. apply pow_incr. lra.
Qed.

(** a signature that does not depend on the hash *)
Theorem strict_blind lg pk msg sig k : falcon_lg lg -> bytes pk -> length pk = pkey_len lg -> bytes sig -> (sig_bytes lg + 2 <= length sig)%nat ->
  prob (136 * k) (fun w => accepted (verify Strict k (fun _ => stream w) lg pk msg sig)) <= (1 / 11) ^ 2 ^ lg.
Proof.
  intros Hlg Bp Lp Bs Ls. assert (P0 : 0 <= (1 / 11) ^ 2 ^ lg) by (apply pow_le; lra).
  assert (Z0 : (forall w, bytes w -> verify Strict k (fun _ => stream w) lg pk msg sig = Ok false) -> prob (136 * k) (fun w => accepted (verify Strict k (fun _ => stream w) lg pk msg sig)) <= (1 / 11) ^ 2 ^ lg).
  { intros H. rewrite prob_avg, (avg_ext _ _ (fun _ => 0)); [rewrite avg_const; exact P0|]. intros w _ Bw. rewrite (H w Bw). reflexivity. }
  assert (HX : forall w, bytes w -> forall a : list Z, byte_stream ((fun _ => stream w) a)) by (intros w Bw a; apply P_hash.stream_bytes; exact Bw).
  destruct (Z.eq_dec (nth 0 pk 0%Z) (Z.of_nat lg)) as [E0|N0].
  2:{ apply Z0. intros w Bw. destruct (verify_ok Strict k (fun _ => stream w) lg pk msg sig Hlg (HX w Bw) Bp Lp Bs Ls) as (V1 & V2 & V3 & _). exact (V1 N0). }
  destruct (Z.eq_dec (nth 0 sig 0%Z) (48 + Z.of_nat lg)) as [E1|N1].
  2:{ apply Z0. intros w Bw. destruct (verify_ok Strict k (fun _ => stream w) lg pk msg sig Hlg (HX w Bw) Bp Lp Bs Ls) as (V1 & V2 & V3 & _). exact (V2 N1). }
  destruct (Classical_Prop.classic (exists s, accepts lg sig s)) as [[s2 A]|NA].
  2:{ apply Z0. intros w Bw. destruct (verify_ok Strict k (fun _ => stream w) lg pk msg sig Hlg (HX w Bw) Bp Lp Bs Ls) as (V1 & V2 & V3 & _). apply V3. intros s A. apply NA. exists s. exact A. }
  destruct (pk_back lg pk (repeat 0%Z (2 ^ lg)%nat) (repeat 0%Z (pkey_len lg)) Hlg Lp Bp (repeat_length _ _) (repeat_length _ _)) as [_ P2]. destruct (P2 E0) as (h & Eh & _).
  destruct (hash_test lg (firstn 40 (skipn 1 sig)) msg k (fun c => (vnorm lg c s2 h <? 2147483648)%Z && (vnorm lg c s2 h <=? beta2 lg)%Z)
     (fun w => accepted (verify Strict k (fun _ => stream w) lg pk msg sig))) as (p & [p0 p1] & ->).
  { intros w _ Bw. destruct (verify_ok Strict k (fun _ => stream w) lg pk msg sig Hlg (HX w Bw) Bp Lp Bs Ls) as (_ & _ & _ & V). rewrite (V h s2 Eh E1 A).
    destruct (hash_to_point k (fun _ => stream w) lg (firstn 40 (skipn 1 sig)) msg (repeat 0%Z (2 ^ lg))) as [c| |]; cbn [bind accepted]; [|reflexivity|reflexivity].
    destruct (vnorm lg c s2 h <? 2147483648)%Z; [|reflexivity]. cbn [andb]. destruct (vnorm lg c s2 h <=? beta2 lg)%Z; reflexivity. }
  assert (S0 : forall t, 0 <= share lg t). { intros t. unfold share. apply Rmult_le_pos; [apply P_gsum.lsum_pos; intros c; destruct (t c); cbn; lra|]. left. apply Rinv_0_lt_compat, pow_lt. lra. }
  eapply Rle_trans; [apply Rmult_le_compat_r; [apply S0|exact p1]|]. rewrite Rmult_1_l. eapply Rle_trans; [|apply (near_small lg Hlg)].
  unfold share. rewrite <- (polys_shift lg s2 h (fun c => P_prob.ind (sqnorm (map lift c) <=? beta2 lg)%Z)).
  apply Rmult_le_compat_r; [left; apply Rinv_0_lt_compat, pow_lt; lra|]. apply P_gsum.lsum_le. intros c _.
  destruct (vnorm lg c s2 h <=? beta2 lg)%Z eqn:E; [|rewrite andb_false_r; destruct (sqnorm _ <=? _)%Z; cbn [P_prob.ind]; lra].
  apply Z.leb_le in E. unfold vnorm in E. assert (N2 := sqnorm_nonneg s2). replace (sqnorm (map lift (s1_residues lg c s2 h)) <=? beta2 lg)%Z with true by (symmetry; apply Z.leb_le; lia).
  destruct (_ && _); cbn [P_prob.ind]; lra.
Qed.

(** ** with wrap-around *)
Definition forge_vec (lg : nat) : list Z := if Nat.eqb lg 9 then repeat 1023%Z 55 ++ repeat 127%Z 457 else repeat 0%Z (2 ^ lg).
Definition odds (lg : nat) : R := if Nat.eqb lg 9 then 1 / 21 else 1 / 140.
Lemma forge_facts lg : falcon_lg lg -> length (forge_vec lg) = (2 ^ lg)%nat /\ Forall (fun x => (Z.abs x <= 1023)%Z) (forge_vec lg) /\ (Spec.tot (forge_vec lg) < body_len lg)%Z /\ (Spec.tot (forge_vec lg) <= 14 * 2 ^ Z.of_nat lg)%Z /\
  sqnorm (forge_vec lg) = (if Nat.eqb lg 9 then 64930048 else 0)%Z.
Proof.
  intros [-> | ->]; unfold forge_vec; cbn [Nat.eqb].
  - split; [reflexivity|]. split; [apply Forall_app; split; apply Forall_rep; lia|]. split; [vm_compute; reflexivity|]. split; [vm_compute; congruence|]. vm_compute. reflexivity.
  - split; [apply repeat_length|]. split; [apply Forall_rep; lia|]. split; [vm_compute; reflexivity|]. split; [vm_compute; congruence|]. apply sqnorm_0.
Qed.

Lemma forge_sig lg : falcon_lg lg -> exists body, length body = (sig_bytes lg - 41)%nat /\ bytes body /\ forall hd salt x, length salt = 40%nat -> accepts lg (hd :: salt ++ body ++ x) (forge_vec lg).
Proof.
  intros Hlg. destruct (sig_dims lg Hlg) as (D1 & D2 & D3 & D4). destruct (forge_facts lg Hlg) as (F1 & F2 & F3 & F4 & _).
  destruct (compress_ok lg (forge_vec lg) (repeat 0%Z (sig_len lg)) Hlg F1 (repeat_length _ _)) as [C _]. destruct (C F4) as (body & _ & B & L & H & _). rewrite D2 in L. specialize (H F3).
  exists body. split; [exact L|]. split; [exact B|]. intros hd salt x Ls. split; [exact F1|]. destruct (encs_words _ F2) as [W E].
  exists (map enc (forge_vec lg)), (Z.to_nat (body_len lg - Spec.tot (forge_vec lg))). split; [exact W|]. split; [lia|]. rewrite E, <- H. unfold body_bits. f_equal.
  change (hd :: salt ++ body ++ x) with ((hd :: salt) ++ body ++ x). rewrite skipn_app, skipn_all2 by (cbn [length]; lia). cbn [app length]. rewrite Ls. cbn [Nat.sub skipn]. rewrite <- L. apply firstn_lead. reflexivity.
Qed.
Lemma i32_shift x y : (-2147483648 <= x - 4294967296 * y < 2147483648)%Z -> i32 x = (x - 4294967296 * y)%Z.
Proof. intros H. unfold i32. replace (x + 2147483648)%Z with ((x - 4294967296 * y + 2147483648) + y * 4294967296)%Z by ring. rewrite Z_mod_plus_full, Z.mod_small by lia. ring. Qed.
Lemma wrap_share lg s2 h : falcon_lg lg -> sqnorm s2 = sqnorm (forge_vec lg) -> odds lg * (101 / 100) <= share lg (fun c => (i32 (vnorm lg c s2 h) <=? beta2 lg)%Z).
Proof.
  intros Hlg Hs. destruct (forge_facts lg Hlg) as (_ & _ & _ & _ & Hn). rewrite Hn in Hs. clear Hn.
  unfold share, vnorm. rewrite Hs. set (a := (if Nat.eqb lg 9 then 64930048 else 0)%Z) in *.
  rewrite (polys_shift lg s2 h (fun r => P_prob.ind (i32 (a + sqnorm (map lift r)) <=? beta2 lg)%Z)). set (N := (2 ^ lg)%nat).
  assert (P : 0 < 12289 ^ N) by (apply pow_lt; lra). apply (Rmult_le_reg_r _ _ _ P). match goal with |- _ <= ?x / ?y * ?y => replace (x / y * y) with x by (field; lra) end.
  set (lo := (if Nat.eqb lg 9 then 65979136 else 2149581824)). set (hi := (if Nat.eqb lg 9 then 2115539238 else 68167066)).
  set (C := fun t l u => cantelli dl 126705022384128 dl_1 dl_2 N t l u).
  assert (BASE : 12289 ^ N <= lsum (fun c => P_prob.ind (i32 (a + sqnorm (map lift c)) <=? beta2 lg)%Z) (polys N) +
     (lsum (fun c => if Rlt_dec lo (-1 * dev dl c) then 1 else 0) (polys N) + lsum (fun c => if Rlt_dec hi (1 * dev dl c) then 1 else 0) (polys N))).
  { rewrite <- !P_gsum.lsum_plus. rewrite <- (Rmult_1_r (12289 ^ N)), <- (polys_const N 1). apply P_gsum.lsum_le. intros c Hc. apply polys_in in Hc. destruct Hc as [Lc _].
    destruct (Rlt_dec lo (-1 * dev dl c)) as [|X1]; [destruct (Rlt_dec _ _); destruct (_ <=? _)%Z; cbn; lra|]. destruct (Rlt_dec hi (1 * dev dl c)) as [|X2]; [destruct (_ <=? _)%Z; cbn; lra|].
    apply Rnot_lt_le in X1, X2. rewrite dev_dl, Lc in X1, X2. rewrite Rmult_1_l in X2. unfold N in X1, X2.
    assert (G : (i32 (a + sqnorm (map lift c)) <= beta2 lg)%Z).
    { destruct Hlg as [-> | ->]; unfold lo, hi, a, beta2 in *; cbn [Nat.eqb] in *.
      - replace (INR (2 ^ 9)) with 512 in * by (rewrite INR_IZR_INZ; reflexivity). assert (Y1 : IZR 6377520896 <= IZR (sqnorm (map lift c))) by lra. assert (Y2 : IZR (sqnorm (map lift c)) <= IZR 8559039270) by lra.
        apply le_IZR in Y1, Y2. rewrite (i32_shift _ 2) by lia. lia.
      - replace (INR (2 ^ 10)) with 1024 in * by (rewrite INR_IZR_INZ; reflexivity). assert (Y1 : IZR 10737418240 <= IZR (sqnorm (map lift c))) by lra. assert (Y2 : IZR (sqnorm (map lift c)) <= IZR 12955167130) by lra.
        apply le_IZR in Y1, Y2. rewrite (i32_shift _ 3) by lia. lia. }
    apply Z.leb_le in G. rewrite G. cbn. lra. }
  set (A := lsum _ (polys N)) in *. set (L1 := lsum (fun c => if Rlt_dec lo _ then 1 else 0) (polys N)) in *. set (L2 := lsum (fun c => if Rlt_dec hi _ then 1 else 0) (polys N)) in *.
  destruct Hlg as [-> | ->]; unfold lo, hi, odds in *; cbn [Nat.eqb] in *.
  - assert (C1 := C (-1) 65979136 983240000 ltac:(right; lra) ltac:(lra) ltac:(lra) ltac:(lra)). assert (C2 := C 1 2115539238 30665000 ltac:(left; lra) ltac:(lra) ltac:(lra) ltac:(lra)).
    fold L1 in C1. fold L2 in C2. unfold N in C1, C2. replace (INR (2 ^ 9)) with 512 in * by (rewrite INR_IZR_INZ; reflexivity). fold N in C1, C2. clear C. clearbody A L1 L2 N. set (T := 12289 ^ N) in *. clearbody T. lra.
  - assert (C1 := C (-1) 2149581824 60358800 ltac:(right; lra) ltac:(lra) ltac:(lra) ltac:(lra)). assert (C2 := C 1 68167066 1903350000 ltac:(left; lra) ltac:(lra) ltac:(lra) ltac:(lra)).
    fold L1 in C1. fold L2 in C2. unfold N in C1, C2. replace (INR (2 ^ 10)) with 1024 in * by (rewrite INR_IZR_INZ; reflexivity). fold N in C1, C2. clear C. clearbody A L1 L2 N. set (T := 12289 ^ N) in *. clearbody T. lra.
Qed.
Lemma hash_ends lg k : falcon_lg lg -> (64 <= k)%nat -> 16 ^ 2 ^ lg / 8 ^ (68 * k) <= / 1000.
Proof.
  intros Hlg Hk. assert (E : 16 ^ 2 ^ lg <= 8 ^ (2 ^ lg + 2 ^ lg)).
  { rewrite pow_add, <- Rpow_mult_distr. apply pow_incr. lra. }
  assert (G : 8 ^ (2 ^ lg + 2 ^ lg) * 8 ^ 4 <= 8 ^ (68 * k)).
  { rewrite <- pow_add. apply Rle_pow; [lra|]. assert (D : (2 ^ lg + 2 ^ lg + 4 <= 68 * 64)%nat) by (destruct Hlg as [-> | ->]; apply Nat.leb_le; vm_compute; reflexivity). lia. }
  assert (P : 0 < 8 ^ (68 * k)) by (apply pow_lt; lra). apply (Rmult_le_reg_r _ _ _ P). unfold Rdiv. rewrite Rmult_assoc, Rinv_l, Rmult_1_r by lra. cbn [pow] in G. lra.
Qed.
Theorem wrap_blind lg : falcon_lg lg -> exists body, length body = (sig_bytes lg - 41)%nat /\ bytes body /\ forall pk msg salt x k,
  bytes pk -> length pk = pkey_len lg -> nth 0 pk 0%Z = Z.of_nat lg -> bytes salt -> length salt = 40%nat -> bytes x -> (2 <= length x)%nat -> (64 <= k)%nat ->
  odds lg <= prob (136 * k) (fun w => accepted (verify Wrap k (fun _ => stream w) lg pk msg ((48 + Z.of_nat lg)%Z :: salt ++ body ++ x))).
Proof.
  intros Hlg. destruct (forge_sig lg Hlg) as (body & L & B & A). exists body. split; [exact L|]. split; [exact B|]. intros pk msg salt x k Bp Lp E0 Bs Ls Bx Lx Hk.
  set (sig := (48 + Z.of_nat lg)%Z :: salt ++ body ++ x). assert (A' := A (48 + Z.of_nat lg)%Z salt x Ls). fold sig in A'. destruct (sig_dims lg Hlg) as (D1 & _).
  assert (Bsig : bytes sig). { unfold sig. apply Forall_cons; [destruct Hlg as [-> | ->]; vm_compute; split; congruence|]. apply Forall_app. split; [exact Bs|]. apply Forall_app. split; assumption. }
  assert (Lsig : (sig_bytes lg + 2 <= length sig)%nat). { unfold sig. cbn [length]. rewrite !app_length. lia. }
  destruct (pk_back lg pk (repeat 0%Z (2 ^ lg)%nat) (repeat 0%Z (pkey_len lg)) Hlg Lp Bp (repeat_length _ _) (repeat_length _ _)) as [_ P2]. destruct (P2 E0) as (h & Eh & _).
  destruct (hash_test lg (firstn 40 (skipn 1 sig)) msg k (fun c => (i32 (vnorm lg c (forge_vec lg) h) <=? beta2 lg)%Z)
     (fun w => accepted (verify Wrap k (fun _ => stream w) lg pk msg sig))) as (p & [p0 p1] & ->).
  { intros w _ Bw. destruct (verify_ok Wrap k (fun _ => stream w) lg pk msg sig Hlg (fun _ => P_hash.stream_bytes w Bw) Bp Lp Bsig Lsig) as (_ & _ & _ & V). rewrite (V h (forge_vec lg) Eh eq_refl A').
    destruct (hash_to_point k (fun _ => stream w) lg (firstn 40 (skipn 1 sig)) msg (repeat 0%Z (2 ^ lg))) as [c| |]; cbn [bind accepted]; [|reflexivity|reflexivity].
    destruct (i32 (vnorm lg c (forge_vec lg) h) <=? beta2 lg)%Z; reflexivity. }
  assert (W := wrap_share lg (forge_vec lg) h Hlg eq_refl). assert (H := hash_ends lg k Hlg Hk). assert (O : 0 < odds lg) by (unfold odds; destruct (Nat.eqb lg 9); lra).
  set (s := share _ _) in *. clearbody s. assert (p9 : 999 / 1000 <= p) by lra. apply Rle_trans with (999 / 1000 * (odds lg * (101 / 100))); [lra|]. apply Rmult_le_compat; lra.
Qed.

(** ** several attempts with independent hashes *)
Lemma prob_not n P : prob n (fun w => negb (P w)) = 1 - prob n P.
Proof.
  rewrite !prob_avg. rewrite (avg_ext n _ (fun w => 1 + (- 1) * P_prob.ind (P w))) by (intros w _ _; destruct (P w); cbn; ring). rewrite avg_plus, avg_const, avg_scal. ring.
Qed.
Lemma existsb_seq (F : nat -> bool) l : existsb F (map S l) = existsb (fun i => F (S i)) l.
Proof. induction l as [|x l IH]; [reflexivity|]. cbn [map existsb]. rewrite IH. reflexivity. Qed.
Lemma existsb_same (F G : nat -> bool) l : (forall i, F i = G i) -> existsb F l = existsb G l.
Proof. intros H. induction l as [|x l IH]; [reflexivity|]. cbn [existsb]. rewrite IH, H. reflexivity. Qed.
Lemma skip_skip {A} a b (l : list A) : skipn b (skipn a l) = skipn (a + b) l.
Proof. revert l. induction a as [|a IH]; intros l; [reflexivity|]. destruct l; [rewrite !skipn_nil; reflexivity|]. apply IH. Qed.
Lemma tries n p : 0 <= p <= 1 -> forall j (F : nat -> list Z -> bool), (forall i, (i < j)%nat -> p <= prob n (F i)) ->
  1 - (1 - p) ^ j <= prob (n * j) (fun w => existsb (fun i => F i (firstn n (skipn (n * i) w))) (seq 0 j)).
Proof.
  intros [p0 p1] j. induction j as [|j IH]; intros F HF; [cbn [pow]; destruct (prob_range (n * 0) (fun w => existsb (fun i => F i (firstn n (skipn (n * i) w))) (seq 0 0))); lra|].
  assert (I := IH (fun i => F (S i)) (fun i Hi => HF (S i) ltac:(lia))). set (G := fun w => existsb (fun i => F (S i) (firstn n (skipn (n * i) w))) (seq 0 j)) in *.
  replace (prob (n * S j) _) with (1 - prob (n + n * j) (fun w => negb (F 0%nat (firstn n w)) && negb (G (skipn n w)))).
  - rewrite (prob_split n (n * j) (fun v => negb (F 0%nat v)) (fun v => negb (G v))), !prob_not. assert (F0 := HF 0%nat ltac:(lia)). destruct (prob_range n (F 0%nat)) as [f0 f1]. destruct (prob_range (n * j) G) as [g0 g1]. cbn [pow].
    assert (X : (1 - prob n (F 0%nat)) * (1 - prob (n * j) G) <= (1 - p) * (1 - p) ^ j) by (apply Rmult_le_compat; lra). lra.
  - replace (n * S j)%nat with (n + n * j)%nat by lia. rewrite <- prob_not. apply prob_ext. intros w. rewrite <- negb_orb, negb_involutive. cbn [seq existsb]. rewrite Nat.mul_0_r. cbn [skipn]. f_equal.
    unfold G. rewrite <- seq_shift, existsb_seq. apply existsb_same. intros i. rewrite skip_skip. f_equal. f_equal. f_equal. lia.
Qed.
Theorem wrap_tries lg : falcon_lg lg -> exists body, length body = (sig_bytes lg - 41)%nat /\ bytes body /\ forall pk msg x k (salt : nat -> list Z) j,
  bytes pk -> length pk = pkey_len lg -> nth 0 pk 0%Z = Z.of_nat lg -> (forall i, bytes (salt i) /\ length (salt i) = 40%nat) -> bytes x -> (2 <= length x)%nat -> (64 <= k)%nat ->
  1 - (1 - odds lg) ^ j <= prob (136 * k * j) (fun w => existsb (fun i => accepted (verify Wrap k (fun _ => stream (firstn (136 * k) (skipn (136 * k * i) w))) lg pk msg ((48 + Z.of_nat lg)%Z :: salt i ++ body ++ x))) (seq 0 j)).
Proof.
  intros Hlg. destruct (wrap_blind lg Hlg) as (body & L & B & H). exists body. split; [exact L|]. split; [exact B|]. intros pk msg x k salt j Bp Lp E0 Hs Bx Lx Hk.
  apply (tries (136 * k) (odds lg)) with (F := fun i w => accepted (verify Wrap k (fun _ => stream w) lg pk msg ((48 + Z.of_nat lg)%Z :: salt i ++ body ++ x))).
  - unfold odds. destruct (Nat.eqb lg 9); lra.
  - intros i _. destruct (Hs i) as [S1 S2]. apply H; assumption.
Qed.
