(** P_key.v -- a key for N = 512 with small coefficients, used to show that the hypotheses of claims about encoded keys can be met.
    f, g, F, G are polynomials in x^64 with eight coefficients each. *)
From Verif Require Import Base Ring Poly Spec SpecR M_ff M_codec P_codec M_ntt P_ntt P_nttx M_ntru P_ntru P_keys P_cplx P_fft P_leaf.
From Coq Require Import Reals Lra.
Lemma nth_nil (k : nat) : nth k (@nil Z) 0%Z = 0%Z.
Proof. destruct k; reflexivity. Qed.
Open Scope Z_scope.
Notation pev := Poly.pev.

(** substitute x^2 for x *)
Fixpoint spr (l : list Z) : list Z := match l with [] => [] | c :: r => c :: 0 :: spr r end.
Lemma spr_length l : length (spr l) = (2 * length l)%nat.
Proof. induction l as [|c r IH]; [reflexivity|]. cbn [spr length]. rewrite IH. lia. Qed.
Lemma nth_spr l k : nth k (spr l) 0 = if Nat.even k then nth (k / 2) l 0 else 0.
Proof.
  revert k. induction l as [|c r IH]; intros k; [cbn [spr]; rewrite !nth_nil; destruct (Nat.even k); reflexivity|].
  destruct k as [|[|k]]; [reflexivity|reflexivity|]. cbn [spr nth Nat.even]. rewrite IH. destruct (Nat.even k); [|reflexivity].
  replace (S (S k) / 2)%nat with (S (k / 2)); [reflexivity|]. replace (S (S k)) with (k + 1 * 2)%nat by lia. rewrite Nat.div_add by lia. lia.
Qed.
Lemma spr_plift n l : length l = n -> zof (2 * n) (spr l) = plift Z 0 (zof n l).
Proof.
  intros L. apply (pv_ext Z 0). intros k Hk. rewrite pc_ofl by exact Hk. unfold plift. rewrite pc_mkp by exact Hk. rewrite nth_spr.
  destruct (Nat.even k); [|reflexivity]. symmetry. apply pc_ofl. apply Nat.div_lt_upper_bound; lia.
Qed.
Lemma spr_ntru n f g F G : length f = n -> length g = n -> length F = n -> length G = n -> ntru n f g F G -> ntru (2 * n) (spr f) (spr g) (spr F) (spr G).
Proof.
  intros L1 L2 L3 L4 H. apply ntru_iff. rewrite !spr_plift by assumption. apply ntru_iff in H.
  rewrite <- !(plift_mul _ _ _ _ _ _ _ Zth'), <- (plift_sub _ _ _ _ _ _ _ Zth'). rewrite H. apply plift_cst.
Qed.
Lemma pl_spr n (p : zpv n) : zpl (plift Z 0 p) = spr (zpl p).
Proof.
  apply (list_ext 0); [rewrite spr_length, !pl_length; reflexivity|]. rewrite pl_length. intros k Hk. rewrite nth_spr.
  change (nth k (zpl (plift Z 0 p)) 0) with (pc Z 0 (plift Z 0 p) k). unfold plift. rewrite pc_mkp by exact Hk. reflexivity.
Qed.
Lemma spr_mul n a b : length a = n -> length b = n -> negacyclic (2 * n) (spr a) (spr b) = spr (negacyclic n a b).
Proof. intros L1 L2. rewrite !negacyclic_zmul, !spr_plift by assumption. rewrite <- (plift_mul _ _ _ _ _ _ _ Zth'). apply pl_spr. Qed.
Lemma spr_forall (P : Z -> Prop) l : P 0 -> Forall P l -> Forall P (spr l).
Proof. intros H0 H. induction H; cbn [spr]; repeat constructor; assumption. Qed.
Lemma spr_sqnorm l : sqnorm (spr l) = sqnorm l.
Proof. induction l as [|c r IH]; [reflexivity|]. cbn [spr]. unfold sqnorm in *. cbn [fold_right] in *. rewrite IH. lia. Qed.

Open Scope R_scope.
Lemma spr_horner l x : horner (map Cz (spr l)) x = horner (map Cz l) (Cmul x x).
Proof.
  induction l as [|c r IH]; [reflexivity|]. cbn [spr map horner]. rewrite IH. unfold Cadd, Cmul, Cz, Cof. destruct x as [a b].
  destruct (horner (map Cz r) _) as [u v]. cbn [fst snd]. f_equal; ring.
Qed.
Lemma cis_sq t : Cmul (cis t) (cis t) = cis (2 * t).
Proof. unfold Cmul, cis. cbn [fst snd]. rewrite cos_2a, sin_2a. f_equal; ring. Qed.

Definition kf : list Z := spr (spr (spr (spr (spr (spr [31; 20; -31; 21; -16; 31; 31; 12]%Z))))).
Definition kg : list Z := spr (spr (spr (spr (spr (spr [12; 29; 11; -28; 31; -12; -26; -31]%Z))))).
Definition kF : list Z := spr (spr (spr (spr (spr (spr [-68; -30; -31; 2; 14; -45; 16; 12]%Z))))).
Definition kG : list Z := spr (spr (spr (spr (spr (spr [64; -35; -27; -33; 39; -40; 65; 10]%Z))))).
Lemma k_length : length kf = 512%nat /\ length kg = 512%nat /\ length kF = 512%nat /\ length kG = 512%nat.
Proof. repeat split; reflexivity. Qed.
Lemma k_ntru : ntru 512 kf kg kF kG.
Proof.
  unfold kf, kg, kF, kG. change 512%nat with (2 * (2 * (2 * (2 * (2 * (2 * 8))))))%nat. do 6 (apply spr_ntru; [reflexivity|reflexivity|reflexivity|reflexivity|]).
  intros k Hk. do 8 (destruct k as [|k]; [reflexivity|]). lia.
Qed.
Lemma k_small (B : Z) : (68 <= B)%Z -> Forall (fun x => Z.abs x <= B)%Z kf /\ Forall (fun x => Z.abs x <= B)%Z kg /\ Forall (fun x => Z.abs x <= B)%Z kF /\ Forall (fun x => Z.abs x <= B)%Z kG.
Proof. intros H. repeat split; repeat (apply spr_forall; [lia|]); repeat constructor; lia. Qed.

(** cosine sums *)
Fixpoint csum (t : R) (m : nat) (l : list Z) : R := match l with [] => 0 | c :: r => IZR c * cos (INR m * t) + csum t (S m) r end.
Lemma re_cis t l : forall m, fst (Cmul (cis (INR m * t)) (horner (map Cz l) (cis t))) = csum t m l.
Proof.
  induction l as [|c r IH]; intros m; [cbn [map horner csum]; unfold Cmul, Czero; cbn [fst snd]; ring|]. cbn [map horner csum]. rewrite <- IH. rewrite S_INR.
  replace ((INR m + 1) * t) with (INR m * t + t) by ring. unfold Cmul, Cadd, Cz, cis. destruct (horner _ _) as [u v]. cbn [fst snd]. rewrite cos_plus, sin_plus. ring.
Qed.
Lemma mod2_cons t c r : mod2 (horner (map Cz (c :: r)) (cis t)) = IZR c * IZR c + 2 * IZR c * csum t 1 r + mod2 (horner (map Cz r) (cis t)).
Proof.
  rewrite <- (re_cis t r 1). cbn [map horner]. change (INR 1) with 1. rewrite Rmult_1_l. unfold Cmul, Cadd, Cz, cis, mod2. destruct (horner _ _) as [u v]. cbn [fst snd].
  assert (E := sin2_cos2 t). unfold Rsqr in E. replace (u * u + v * v) with ((u * u + v * v) * (sin t * sin t + cos t * cos t)) by (rewrite E; ring). ring.
Qed.
Lemma k_row i : 9277 <= row_norm 9 kf kg i.
Proof.
  unfold row_norm, poly_at, fft_point, kf, kg. rewrite !spr_horner, !cis_sq. set (t := 2 * _).
  rewrite !mod2_cons. cbn [csum map horner]. change (mod2 Czero) with (0 * 0 + 0 * 0).
  assert (C : forall n, -1 <= cos (INR n * t) <= 1) by (intros n; apply COS_bound).
  assert (C1 := C 1%nat). assert (C2 := C 2%nat). assert (C3 := C 3%nat). assert (C4 := C 4%nat). assert (C5 := C 5%nat). assert (C6 := C 6%nat). assert (C7 := C 7%nat). clear C.
  set (a1 := cos (INR 1 * t)) in *. set (a2 := cos (INR 2 * t)) in *. set (a3 := cos (INR 3 * t)) in *. set (a4 := cos (INR 4 * t)) in *. set (a5 := cos (INR 5 * t)) in *.
  set (a6 := cos (INR 6 * t)) in *. set (a7 := cos (INR 7 * t)) in *. clearbody a1 a2 a3 a4 a5 a6 a7. lra.
Qed.
Lemma k_gs : gs_norm 9 kf kg <= 16822.
Proof.
  unfold gs_norm. apply Rmax_lub.
  - unfold kf, kg. rewrite !spr_sqnorm. apply Rle_trans with 9717; [apply IZR_le; vm_compute; discriminate|lra].
  - unfold gs_second. change (IZR (q * q)) with 151019521.
    assert (E : forall n, Rsigma n (fun i => 151019521 / row_norm 9 kf kg i) <= INR n * (151019521 / 9277)).
    { induction n as [|n IH]; [simpl; lra|]. cbn [Rsigma]. rewrite S_INR. assert (X : 151019521 / row_norm 9 kf kg n <= 151019521 / 9277).
      { unfold Rdiv. apply Rmult_le_compat_l; [lra|]. apply Rinv_le_contravar; [lra|apply k_row]. } lra. }
    specialize (E (2 ^ 9)%nat). assert (P : 0 < INR (2 ^ 9)) by (apply lt_0_INR; apply Nat.lt_0_succ || (apply pow2_pos)).
    apply Rle_trans with (151019521 / 9277); [|lra]. apply Rmult_le_reg_r with (INR (2 ^ 9)); [exact P|]. unfold Rdiv at 1. rewrite Rmult_assoc, Rinv_l by lra. lra.
Qed.
Lemma k_inv : is_poly_invertible 9 kf = Ok true.
Proof.
  assert (Hlg : falcon_lg 9) by (left; reflexivity). assert (S1 : Forall smallq kf).
  { eapply Forall_impl; [|apply (k_small 100); lia]. intros x Hx. cbv beta in Hx. unfold smallq, q. lia. }
  destruct (is_poly_invertible_spec 9 kf Hlg (proj1 k_length) S1) as (b & E & H). rewrite E. f_equal. apply H.
  exists (spr (spr (spr (spr (spr (spr [6486; 1401; 3389; 10008; 3866; 1197; 2508; 8303]%Z)))))). split; [reflexivity|].
  unfold kf. change (2 ^ 9)%nat with (2 * (2 * (2 * (2 * (2 * (2 * 8))))))%nat. rewrite !spr_mul by reflexivity. vm_compute. reflexivity.
Qed.
Lemma k_skey : exists skey, length skey = 1281%nat /\ bytes skey /\ decode_skey 9 skey (repeat 0%Z 512) (repeat 0%Z 512) (repeat 0%Z 512) = Ok (true, (kf, kg, kF)).
Proof.
  destruct k_length as [L1 [L2 [L3 L4]]].
  destruct (skey_round 9 kf kg kF (repeat 0%Z 1281) (repeat 0%Z 512) (repeat 0%Z 512) (repeat 0%Z 512)) as [e [_ [Le [Be [_ H]]]]]; try assumption; try (left; reflexivity); try apply repeat_length.
  exists e. split; [exact Le|]. split; [exact Be|]. apply H. unfold kf, kg, kF.
  assert (Z1 : fits (skey_modulus 9) 0) by (vm_compute; split; discriminate || reflexivity). assert (Z2 : fits 256 0) by (vm_compute; split; discriminate || reflexivity).
  repeat split; repeat (apply spr_forall; [assumption|]); repeat constructor; (discriminate || reflexivity).
Qed.
