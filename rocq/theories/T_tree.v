(** T_tree.v -- claims C46-C48 and C54: Gram matrix, LDL decomposition, Falcon tree.

    The layout claims (C47) hold for any floating point behaviour F; the others are about exact arithmetic. *)
From Coq Require Import Lra.
From Verif Require Import Base Spec SpecR M_float M_exact M_samp M_fft M_ntru M_tree P_tree P_treel P_gs P_leaf.
Open Scope R_scope.

(** C46: B and G are 2x2 matrices of vectors of N values, stored row by row. *)
Theorem C46_gram : forall lg (B G0 : list Cx), length B = (4 * 2 ^ lg)%nat -> length G0 = (4 * 2 ^ lg)%nat ->
  exists G, compute_gram_matrix RF lg B G0 = Ok G /\ length G = (4 * 2 ^ lg)%nat /\
  forall r c i, (r < 2)%nat -> (c < 2)%nat -> (i < 2 ^ lg)%nat ->
    nth ((2 * r + c) * 2 ^ lg + i) G Czero =
    Cadd (Cmul (nth ((2 * r + 0) * 2 ^ lg + i) B Czero) (Cconj (nth ((2 * c + 0) * 2 ^ lg + i) B Czero)))
         (Cmul (nth ((2 * r + 1) * 2 ^ lg + i) B Czero) (Cconj (nth ((2 * c + 1) * 2 ^ lg + i) B Czero))).
Proof. exact gram_entries. Qed.
Print Assumptions C46_gram.
(** L D L^star = G with L = [[1,0],[l,1]] and D = diag(d0,d1), and det D = det G. *)
Theorem C46_ldl : forall lg (G : list Cx), length G = (4 * 2 ^ lg)%nat ->
  (forall i, (i < 2 ^ lg)%nat -> snd (nth (0 * 2 ^ lg + i) G Czero) = 0 /\ fst (nth (0 * 2 ^ lg + i) G Czero) <> 0 /\ snd (nth (3 * 2 ^ lg + i) G Czero) = 0 /\
    nth (1 * 2 ^ lg + i) G Czero = Cconj (nth (2 * 2 ^ lg + i) G Czero)) ->
  exists l10 d00 d11, ldl RF lg G = Ok (l10, d00, d11) /\ length l10 = (2 ^ lg)%nat /\ length d00 = (2 ^ lg)%nat /\ length d11 = (2 ^ lg)%nat /\
  forall i, (i < 2 ^ lg)%nat ->
    let l := nth i l10 Czero in let d0 := nth i d00 Czero in let d1 := nth i d11 Czero in
    snd d0 = 0 /\ snd d1 = 0 /\
    nth (0 * 2 ^ lg + i) G Czero = d0 /\ nth (1 * 2 ^ lg + i) G Czero = Cmul d0 (Cconj l) /\
    nth (2 * 2 ^ lg + i) G Czero = Cmul l d0 /\ nth (3 * 2 ^ lg + i) G Czero = Cadd (Cmul (Cmul l d0) (Cconj l)) d1 /\
    Cmul d0 d1 = Csub (Cmul (nth (0 * 2 ^ lg + i) G Czero) (nth (3 * 2 ^ lg + i) G Czero)) (Cmul (nth (1 * 2 ^ lg + i) G Czero) (nth (2 * 2 ^ lg + i) G Czero)).
Proof. exact ldl_entries. Qed.
Print Assumptions C46_ldl.
Example C46_sat : let G : list Cx := [(2, 0); (3, 0); (1, 1); (0, 2); (1, -1); (0, -2); (5, 0); (7, 0)] in
  length G = (4 * 2 ^ 1)%nat /\
  forall i, (i < 2 ^ 1)%nat -> snd (nth (0 * 2 ^ 1 + i) G Czero) = 0 /\ fst (nth (0 * 2 ^ 1 + i) G Czero) <> 0 /\ snd (nth (3 * 2 ^ 1 + i) G Czero) = 0 /\
    nth (1 * 2 ^ 1 + i) G Czero = Cconj (nth (2 * 2 ^ 1 + i) G Czero).
Proof.
  cbv zeta. split; [reflexivity|]. intros i Hi. change (2 ^ 1)%nat with 2%nat in *.
  assert (H : i = 0%nat \/ i = 1%nat) by lia. destruct H as [-> | ->]; cbn; unfold Cconj; cbn; repeat split; try lra; f_equal; lra.
Qed.

(** C47: ffldl fills the first (h+1) 2^h cells with values that do not depend on what the array held, and leaves the
    rest alone; normalize_tree replaces exactly the 2^h leaf cells; ff_sampling reads no other cell of the tree. *)
Theorem C47_ffldl : forall F (ztab : list (D F * D F)) h G, (1 <= h)%nat -> (2 ^ h <= length ztab)%nat -> length G = (4 * 2 ^ h)%nat ->
  exists t, length t = ((h + 1) * 2 ^ h)%nat /\
  forall T, ((h + 1) * 2 ^ h <= length T)%nat -> ffldl F ztab h 0 G T 0 = Ok (t ++ skipn ((h + 1) * 2 ^ h) T).
Proof. exact ffldl_layout. Qed.
Print Assumptions C47_ffldl.
Theorem C47_normalize : forall F h sigma (T : list (D F * D F)), (1 <= h)%nat -> ((h + 1) * 2 ^ h <= length T)%nat ->
  exists T', normalize_tree F h 0 T 0 sigma = Ok T' /\ length T' = length T /\
    forall k, nth k T' (c0 F) = if ((h * 2 ^ h <=? k) && (k <? (h + 1) * 2 ^ h))%nat%bool
      then (fdiv F sigma (fsqrt F (fst (nth k T (c0 F)))), fofz F 0) else nth k T (c0 F).
Proof. exact normalize_layout. Qed.
Print Assumptions C47_normalize.
Theorem C47_sampling : forall F (ztab : list (D F * D F)) fuel smin rng h t0 t1 T pos, ((h + 1) * 2 ^ h <= length T)%nat ->
  ff_sampling F ztab fuel h 0 t0 t1 T 0 smin rng pos = ff_sampling F ztab fuel h 0 t0 t1 (firstn ((h + 1) * 2 ^ h) T) 0 smin rng pos.
Proof. exact ffsamp_layout. Qed.
Print Assumptions C47_sampling.
Example C47_sat : let T := repeat Czero 12 in (1 <= 2)%nat /\ (2 ^ 2 <= length exact_table)%nat /\ length (repeat Cone 16) = (4 * 2 ^ 2)%nat /\ ((2 + 1) * 2 ^ 2 <= length T)%nat.
Proof. cbn. repeat split; lia. Qed.

(** C48: for every solution of the NTRU equation the tree construction succeeds; each leaf is sigma divided by the square
    root of a positive real between q^2/m and m, m being the squared Gram-Schmidt norm of the basis. *)
Theorem C48_leaves : forall lg f g F_ G_ (T : list Cx), (1 <= lg <= 10)%nat -> length f = (2 ^ lg)%nat -> length g = (2 ^ lg)%nat ->
  length F_ = (2 ^ lg)%nat -> length G_ = (2 ^ lg)%nat -> ntru (2 ^ lg) f g F_ G_ -> ((lg + 1) * 2 ^ lg <= length T)%nat ->
  exists B T', compute_matrix_B RF exact_table lg f g F_ G_ = Ok B /\ compute_falcon_tree RF exact_table lg B T = Ok T' /\ length T' = length T /\
  forall j, (j < 2 ^ lg)%nat -> exists x, 0 < x /\ IZR (q * q) / gs_norm lg f g <= x <= gs_norm lg f g /\
    nth (lg * 2 ^ lg + j) T' Czero = Cof (sigma_value RF lg / sqrt x).
Proof. exact leaf_cells. Qed.
Print Assumptions C48_leaves.
Example C48_sat : ntru (2 ^ 1) [3; -1]%Z [-5; 8]%Z [620; 993]%Z [374; 123]%Z.
Proof. intros k Hk. change (2 ^ 1)%nat with 2%nat in *. assert (H : k = 0%nat \/ k = 1%nat) by lia. destruct H as [-> | ->]; reflexivity. Qed.

(** C54: the test in ntru_gen computes the squared Gram-Schmidt norm; every generated key passes it in exact arithmetic; and
    a key that passes it gives the sampler standard deviations in [leaf_lo, leaf_hi]. *)
Theorem C54_test_is_norm : forall lg f g, (lg <= 10)%nat -> length f = (2 ^ lg)%nat -> length g = (2 ^ lg)%nat ->
  (forall i, (i < 2 ^ lg)%nat -> 0 < row_norm lg f g i) ->
  gram_schmidt_norm RF exact_table lg f g = Ok (gs_norm lg f g).
Proof. exact gsn_ok. Qed.
Print Assumptions C54_test_is_norm.
Theorem C54_generated_keys_short : forall fuel sfuel lg rng pos f0 g0 F0 G0 f g F_ G_ pos', byte_stream rng -> falcon_lg lg ->
  length f0 = (2 ^ lg)%nat -> length g0 = (2 ^ lg)%nat -> length F0 = (2 ^ lg)%nat -> length G0 = (2 ^ lg)%nat ->
  ntru_gen RF exact_table fuel sfuel lg rng pos f0 g0 F0 G0 = Ok (f, g, F_, G_, pos') ->
  gs_norm lg f g <= 117 / 100 * (117 / 100) * 12289.
Proof. exact gen_gs. Qed.
Print Assumptions C54_generated_keys_short.
Theorem C54_leaf_range : forall lg f g F_ G_ (T : list Cx), falcon_lg lg ->
  length f = (2 ^ lg)%nat -> length g = (2 ^ lg)%nat -> length F_ = (2 ^ lg)%nat -> length G_ = (2 ^ lg)%nat -> ntru (2 ^ lg) f g F_ G_ ->
  gs_norm lg f g <= 117 / 100 * (117 / 100) * 12289 -> length T = ((lg + 1) * 2 ^ lg)%nat ->
  exists B T', compute_matrix_B RF exact_table lg f g F_ G_ = Ok B /\ compute_falcon_tree RF exact_table lg B T = Ok T' /\ length T' = length T /\
  forall j, (j < 2 ^ lg)%nat -> snd (nth (lg * 2 ^ lg + j) T' Czero) = 0 /\ leaf_lo lg <= fst (nth (lg * 2 ^ lg + j) T' Czero) <= leaf_hi lg.
Proof. exact short_leaves. Qed.
Print Assumptions C54_leaf_range.
Example C54_sat : let k c := c :: repeat 0%Z (2 ^ 9 - 1) in ntru (2 ^ 9) (k 100%Z) (k 1%Z) (k 11%Z) (k 123%Z) /\
  gs_norm 9 (k 100%Z) (k 1%Z) <= 117 / 100 * (117 / 100) * 12289.
Proof. exact key_100. Qed.
