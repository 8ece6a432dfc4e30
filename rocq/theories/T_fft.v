(** T_fft.v -- claims C44 and C45: the FFT of fft.hpp in exact arithmetic.

    RF: exact real arithmetic (M_exact.v); exact_table: the exact roots of unity (SpecR.v).  Rounding and the
    distance of the source's decimal literals to these roots are not part of these claims (see T_table.v for
    the literals). *)
From Verif Require Import Base Ring Spec SpecR M_float M_exact M_fft P_cplx P_fft.
From Coq Require Import Lra.
Open Scope R_scope.

(** C44 *)
Theorem C44_fft : forall lg a, (lg <= 10)%nat -> length a = (2 ^ lg)%nat -> fft RF exact_table lg a = Ok (values lg a).
Proof. exact fft_values. Qed.
Print Assumptions C44_fft.
Theorem C44_ifft_fft : forall lg a, (lg <= 10)%nat -> length a = (2 ^ lg)%nat -> ifft RF exact_table lg (values lg a) = Ok a.
Proof. exact ifft_values. Qed.
Print Assumptions C44_ifft_fft.
Theorem C44_fft_ifft : forall lg y, (lg <= 10)%nat -> length y = (2 ^ lg)%nat ->
  exists a, ifft RF exact_table lg y = Ok a /\ length a = (2 ^ lg)%nat /\ fft RF exact_table lg a = Ok y.
Proof. exact ifft_surj. Qed.
Print Assumptions C44_fft_ifft.
(** the evaluation points are N different roots of x^N + 1 *)
Theorem C44_points : forall lg, (forall i, rpow Cx Cone Cmul (fft_point lg i) (2 ^ lg) = Copp Cone) /\
  ((lg <= 10)%nat -> forall i j, (i < 2 ^ lg)%nat -> (j < 2 ^ lg)%nat -> fft_point lg i = fft_point lg j -> i = j).
Proof. exact points_spec. Qed.
Print Assumptions C44_points.
Theorem C44_pointwise : forall lg a b o, length a = (2 ^ lg)%nat -> length b = (2 ^ lg)%nat -> length o = (2 ^ lg)%nat ->
  cpoly_mul RF lg (values lg a) (values lg b) o = Ok (values lg (Cnegacyclic (2 ^ lg) a b)) /\
  cpoly_add RF lg (values lg a) (values lg b) o = Ok (values lg (Cplus (2 ^ lg) a b)) /\
  cpoly_sub RF lg (values lg a) (values lg b) o = Ok (values lg (Cminus (2 ^ lg) a b)).
Proof. exact product_values. Qed.
Print Assumptions C44_pointwise.
(** the transform of x (N = 2) is (i, -i) *)
Example C44_sat : fft RF exact_table 1 [Czero; Cone] = Ok [(0, 1); (0, -1)] /\ ifft RF exact_table 1 [(0, 1); (0, -1)] = Ok [Czero; Cone].
Proof.
  assert (E : values 1 [Czero; Cone] = [(0, 1); (0, -1)]).
  { assert (P0 : fft_point 1 0 = (0, 1)).
    { unfold fft_point. replace (PI * INR (2 * brv 1 0 + 1) / INR (2 ^ 1)) with (PI / 2) by (simpl; field). unfold cis. rewrite cos_PI2, sin_PI2. reflexivity. }
    assert (P1 : fft_point 1 1 = (0, -1)).
    { unfold fft_point. replace (PI * INR (2 * brv 1 1 + 1) / INR (2 ^ 1)) with (3 * (PI / 2)) by (simpl; field). unfold cis. rewrite cos_3PI2, sin_3PI2. reflexivity. }
    unfold values. cbn [Nat.pow Nat.mul Nat.add seq map horner]. rewrite P0, P1.
    assert (forall a b c d : Cx, a = b -> c = d -> [a; c] = [b; d]) by (intros; congruence). apply H; apply Cx_eq; cx; ring. }
  rewrite <- E. split; [apply C44_fft|apply C44_ifft_fft]; (lia || reflexivity).
Qed.

(** C45 *)
Theorem C45_split : forall lg a o0 o1, (S lg <= 10)%nat -> length a = (2 ^ S lg)%nat -> length o0 = (2 ^ lg)%nat -> length o1 = (2 ^ lg)%nat ->
  split_fft RF exact_table (S lg) (values (S lg) a) o0 o1 = Ok (values lg (evens (2 ^ lg) a), values lg (odds (2 ^ lg) a)).
Proof. exact split_values. Qed.
Print Assumptions C45_split.
Theorem C45_merge : forall lg a b o, (S lg <= 10)%nat -> length a = (2 ^ lg)%nat -> length b = (2 ^ lg)%nat -> length o = (2 ^ S lg)%nat ->
  merge_fft RF exact_table (S lg) (values lg a) (values lg b) o = Ok (values (S lg) (interleave (2 ^ lg) a b)).
Proof. exact merge_values. Qed.
Print Assumptions C45_merge.
Theorem C45_split_merge : forall lg y0 y1 o o0 o1, (S lg <= 10)%nat -> length y0 = (2 ^ lg)%nat -> length y1 = (2 ^ lg)%nat ->
  length o = (2 ^ S lg)%nat -> length o0 = (2 ^ lg)%nat -> length o1 = (2 ^ lg)%nat ->
  exists y, merge_fft RF exact_table (S lg) y0 y1 o = Ok y /\ length y = (2 ^ S lg)%nat /\ split_fft RF exact_table (S lg) y o0 o1 = Ok (y0, y1).
Proof. exact split_merge. Qed.
Print Assumptions C45_split_merge.
Theorem C45_merge_split : forall lg y o o0 o1, (S lg <= 10)%nat -> length y = (2 ^ S lg)%nat ->
  length o = (2 ^ S lg)%nat -> length o0 = (2 ^ lg)%nat -> length o1 = (2 ^ lg)%nat ->
  exists y0 y1, split_fft RF exact_table (S lg) y o0 o1 = Ok (y0, y1) /\ merge_fft RF exact_table (S lg) y0 y1 o = Ok y.
Proof. exact merge_split. Qed.
Print Assumptions C45_merge_split.
Theorem C45_adjoint : forall lg a, length a = (2 ^ lg)%nat -> adj_poly RF lg (values lg a) = Ok (values lg (adjoint (2 ^ lg) a)).
Proof. exact adj_values. Qed.
Print Assumptions C45_adjoint.
Theorem C45_norm : forall lg a, length a = (2 ^ lg)%nat -> sqrd_norm_c RF lg (values lg a) = Ok (Cnorm2 a).
Proof. exact norm_values. Qed.
Print Assumptions C45_norm.
Example C45_sat : split_fft RF exact_table 1 [(0, 1); (0, -1)] [Czero] [Czero] = Ok ([Czero], [Cone]) /\ Cnorm2 [(3, 0); (0, 4)] = 25.
Proof.
  split; [|unfold Cnorm2; simpl; ring].
  assert (E : values 1 [Czero; Cone] = [(0, 1); (0, -1)]).
  { assert (H := proj1 C44_sat). rewrite C44_fft in H by (lia || reflexivity).
    apply (f_equal (fun r => match r with Ok v => v | _ => [] end)) in H. exact H. }
  rewrite <- E. rewrite (C45_split 0) by (lia || reflexivity). apply (f_equal Ok).
  unfold values, evens, odds, tab. cbn [Nat.pow Nat.mul Nat.add seq map nth horner].
  f_equal; apply (f_equal (fun x => [x])); apply Cx_eq; cx; ring.
Qed.
